(** * Properties C65-C68, C80 and C81: data sets

    Files are lists of bytes.  [image_file n rows cols img] is the IDX file of the images [img i r c], [label_file n lab]
    that of the labels [lab i] (SpecData.v).  [samples limit n] is the number of samples asked for: the limit, or all when
    it is -1.  [batches n b g] lists [g start length] for the consecutive batches of [n] samples. *)
From Coq Require Import Ascii String Reals Lra Floats.SpecFloat.
From Verif Require Import Base Scalar ScalarR Types Spec SpecData SpecArt M_Shape M_Tensor M_Data L_Art
  L_Index L_Shape L_Tensor L_Matmul L_Data P_Tensor.
Local Open Scope Z_scope.
Local Open Scope list_scope.

(** ** C65.  Loading gives back the images in order, in batches, every byte divided by 255.  [bytes_scale]: in the element
    type the scaled bytes compare as lying between 0 and 1. *)
Theorem C65_round_trip : forall {T} {S : Scalar T}, bytes_scale (T := T) -> forall b limit n rows cols img extra,
  1 <= b -> 0 <= n <= INT_MAX -> 1 <= rows <= INT_MAX -> 1 <= cols <= INT_MAX -> samples limit n <= n ->
  Z.min b (samples limit n) * rows * cols <= INT_MAX -> num_batches (samples limit n) b * b <= INT_MAX ->
  (forall i r c, 0 <= i < n -> 0 <= r < rows -> 0 <= c < cols -> is_byte (img i r c)) -> Forall is_byte extra ->
  load_images b limit (Some (image_file n rows cols img ++ extra)) =
    Ok (batches (samples limit n) b (image_batch rows cols img : Z -> Z -> tensor T)).
Proof. exact @images_round_trip. Qed.
(** Float32 elements (correctly rounded) satisfy the premise, so the range exception is never raised, and they are
    between 0 and 1. *)
Theorem C65_float32 : forall lm, let S := F32Scalar lm in
  bytes_scale (T := f32) /\ forall b, is_byte b -> s_le zero (scaled b : f32) = true /\ s_le (scaled b : f32) one = true.
Proof. exact (fun lm => conj (f32_bytes_scale lm) (f32_unit_interval lm)). Qed.
(** So do the real numbers. *)
Lemma bytes_scale_R : bytes_scale (T := R).
Proof.
  intros b Hb. unfold scaled. cbn. unfold Rltb. unfold is_byte in Hb.
  assert (H : (0 <= IZR b / 255 <= 1)%R).
  { assert (0 <= IZR b)%R by (apply IZR_le; lia). assert (IZR b <= 255)%R by (apply IZR_le; lia). lra. }
  destruct (Rlt_dec (IZR b / 255) 0); [lra|]. destruct (Rlt_dec 1 (IZR b / 255)); [lra|]. auto.
Qed.
Theorem C65_reals : bytes_scale (T := R).
Proof. exact bytes_scale_R. Qed.
(** Any other four bytes in the place of the magic number. *)
Theorem C65_wrong_magic : forall {T} {S : Scalar T} b limit m0 m1 m2 m3 d0 d1 d2 d3 e0 e1 e2 e3 f0 f1 f2 f3 rest,
  is_byte m0 -> is_byte m1 -> is_byte m2 -> is_byte m3 -> [m0; m1; m2; m3] <> be32 2051 ->
  load_images b limit (Some ([m0; m1; m2; m3] ++ [d0; d1; d2; d3] ++ [e0; e1; e2; e3] ++ [f0; f1; f2; f3] ++ rest)) =
    (Throw RuntimeError : outcome (list (tensor T))).
Proof. exact @images_bad_magic. Qed.
Definition imgZ (i r c : Z) : Z := 100 * i + 10 * r + c.
Example C65_case : forall lm, let S := F32Scalar lm in
  (forall i r c, 0 <= i < 3 -> 0 <= r < 2 -> 0 <= c < 2 -> is_byte (imgZ i r c)) /\ num_batches (samples (-1) 3) 2 * 2 <= INT_MAX /\
  match load_images 2 (-1) (Some (image_file 3 2 2 imgZ)) with
  | Ok [x; y] => tdims x = [2; 1; 2; 2] /\ tdims y = [1; 1; 2; 2] /\ rd (tdata y) 3 = Ok (scaled 211 : f32)
  | _ => False
  end.
Proof.
  intros lm. cbv zeta. split; [unfold imgZ, is_byte; intros; lia|]. split; [vm_compute; discriminate|]. vm_compute. auto.
Qed.
Print Assumptions C65_round_trip.
Print Assumptions C65_float32.
Print Assumptions C65_reals.
Print Assumptions C65_wrong_magic.

(** ** C66.  Labels become one-hot rows, batched the same way. *)
Theorem C66_round_trip : forall {T} {S : Scalar T} b limit n lab extra,
  1 <= b -> 0 <= n <= INT_MAX -> samples limit n <= n ->
  Z.min b (samples limit n) * 10 <= INT_MAX -> num_batches (samples limit n) b * b <= INT_MAX ->
  (forall i, 0 <= i < samples limit n -> 0 <= lab i <= 9) ->
  load_labels b limit (Some (label_file n lab ++ extra)) =
    Ok (batches (samples limit n) b (label_batch lab : Z -> Z -> tensor T)).
Proof. exact @labels_round_trip. Qed.
(** A label above 9 among those asked for, or one that is missing from the file, throws out_of_range. *)
Theorem C66_bad_label : forall {T} {S : Scalar T} b limit n lab have,
  1 <= b -> 0 <= n <= INT_MAX -> samples limit n <= INT_MAX -> Z.min b (samples limit n) * 10 <= INT_MAX ->
  (forall i, 0 <= i < n -> is_byte (lab i)) -> 0 <= have <= n ->
  (exists i, 0 <= i < samples limit n /\ (have <= i \/ 9 < lab i)) ->
  load_labels b limit (Some (label_header n ++ map lab (zrange 0 have))) = (Throw OutOfRange : outcome (list (tensor T))).
Proof. exact @labels_bad_file. Qed.
Theorem C66_wrong_magic : forall {T} {S : Scalar T} b limit m0 m1 m2 m3 d0 d1 d2 d3 rest,
  is_byte m0 -> is_byte m1 -> is_byte m2 -> is_byte m3 -> [m0; m1; m2; m3] <> be32 2049 ->
  load_labels b limit (Some ([m0; m1; m2; m3] ++ [d0; d1; d2; d3] ++ rest)) = (Throw RuntimeError : outcome (list (tensor T))).
Proof. exact @labels_bad_magic. Qed.
(** There are ceil(n / b) batches, each of 1 to b rows, n rows in all. *)
Theorem C66_batches : forall {T} {S : Scalar T} b n lab, 1 <= b -> 0 <= n ->
  let l := batches n b (label_batch lab : Z -> Z -> tensor T) in
  Zlen l = num_batches n b /\ Forall (fun t => 1 <= height t <= b) l /\ total (map height l) = n.
Proof. exact (fun T S b n lab Hb Hn => batches_shape n b (label_batch lab : Z -> Z -> tensor T) Hb Hn (fun _ _ => eq_refl)). Qed.
(** The premise on [num_batches] is needed: past it the loop counter overflows. *)
Theorem C66_counter_overflow : forall {T} {S : Scalar T} b limit n lab,
  1 <= b -> 0 <= n <= INT_MAX -> samples limit n <= INT_MAX -> Z.min b (samples limit n) * 10 <= INT_MAX ->
  INT_MAX < num_batches (samples limit n) b * b ->
  (forall i, 0 <= i < samples limit n -> 0 <= byte lab i <= 9) ->
  load_labels b limit (Some (label_header n ++ lab)) = (UB : outcome (list (tensor T))).
Proof. exact @labels_overflow. Qed.
(** A batch size of 0 or less throws as soon as there is a sample to load. *)
Theorem C66_batch_size : forall {T} {S : Scalar T} b limit n rows cols px lab, b <= 0 -> 0 < samples limit n ->
  0 <= n <= INT_MAX -> 0 <= rows <= INT_MAX -> 0 <= cols <= INT_MAX ->
  load_images b limit (Some (image_header n rows cols ++ px)) = (Throw InvalidArgument : outcome (list (tensor T))) /\
  load_labels b limit (Some (label_header n ++ lab)) = (Throw InvalidArgument : outcome (list (tensor T))).
Proof. exact @batch_nonpos. Qed.
Example C66_case : (forall i, 0 <= i < 5 -> 0 <= (fun i => 2 * i) i <= 9) /\ num_batches (samples (-1) 5) 3 * 3 <= INT_MAX /\
  match load_labels (T := Z) 3 (-1) (Some (label_file 5 (fun i => 2 * i))) with
  | Ok [x; y] => tdims x = [3; 10] /\ tdims y = [2; 10] /\ tdata y = [0;0;0;0;0;0;1;0;0;0; 0;0;0;0;0;0;0;0;1;0]
  | _ => False
  end /\
  load_labels (T := Z) 3 (-1) (Some (label_file 6 (fun i => 2 * i))) = Throw OutOfRange.
Proof. split; [cbv beta; intros; lia|]. split; [vm_compute; discriminate|]. vm_compute. auto. Qed.
Print Assumptions C66_round_trip.
Print Assumptions C66_bad_label.
Print Assumptions C66_wrong_magic.
Print Assumptions C66_batches.
Print Assumptions C66_counter_overflow.
Print Assumptions C66_batch_size.

(** ** C67.  Refuted for image files: bytes that are missing load as white pixels, and a file too short for its header has
    undefined behaviour.  Truncated label files do throw (C66_bad_label). *)
Lemma truncated_case : forall lm, let S := F32Scalar lm in
  load_images 1 (-1) (Some (image_header 1 2 2 ++ [0; 0])) =
    Ok [tensor_of [1; 1; 2; 2] (fn4 (fun _ _ r _ => scaled (if r =? 0 then 0 else 255) : f32))].
Proof. intros lm. vm_compute. reflexivity. Qed.
Theorem C67_images_refuted : forall lm, let S := F32Scalar lm in
  exists file (images : list (tensor f32)), Zlen file < Zlen (image_file 1 2 2 (fun _ _ _ => 0)) /\
    file = firstn (length file) (image_file 1 2 2 (fun _ _ _ => 0)) /\ load_images 1 (-1) (Some file) = Ok images.
Proof.
  exact (fun lm => ex_intro _ (image_header 1 2 2 ++ [0; 0]) (ex_intro _ _ (conj eq_refl (conj eq_refl (truncated_case lm))))).
Qed.
Theorem C67_header_refuted : forall {T} {S : Scalar T}, exists file, Zlen file < 16 /\
  load_images 1 (-1) (Some file) = (UB : outcome (list (tensor T))).
Proof. exact (fun T S => ex_intro _ [] (conj eq_refl eq_refl)). Qed.
(** What happens instead, for every truncation point. *)
Theorem C67_missing_pixels_are_white : forall {T} {S : Scalar T}, bytes_scale (T := T) -> forall b limit n rows cols img have,
  1 <= b -> 0 <= n <= INT_MAX -> 1 <= rows <= INT_MAX -> 1 <= cols <= INT_MAX ->
  Z.min b (samples limit n) * rows * cols <= INT_MAX -> num_batches (samples limit n) b * b <= INT_MAX ->
  (forall i r c, 0 <= i < n -> 0 <= r < rows -> 0 <= c < cols -> is_byte (img i r c)) -> 0 <= have <= n * (rows * cols) ->
  load_images b limit (Some (image_header n rows cols ++ firstn (Z.to_nat have) (pixels n rows cols img))) =
    Ok (batches (samples limit n) b (image_batch rows cols
          (fun i r c => if i * (rows * cols) + (r * cols + c) <? have then img i r c else 255) : Z -> Z -> tensor T)).
Proof. exact @images_truncated. Qed.
Theorem C67_short_header : forall {T} {S : Scalar T} b limit f,
  (Zlen f < 16 -> load_images b limit (Some f) = (UB : outcome (list (tensor T)))) /\
  (Zlen f < 8 -> load_labels b limit (Some f) = (UB : outcome (list (tensor T)))).
Proof. exact @header_short. Qed.
(** A file that cannot be opened: an exception, whichever of the two it is. *)
Theorem C67_no_file : forall {T} {S : Scalar T} b limit (labels : option (list Z)),
  load_images b limit None = (Throw RuntimeError : outcome (list (tensor T))) /\ load_labels b limit None = (Throw RuntimeError : outcome (list (tensor T))) /\
  load_data b limit None labels = (Throw RuntimeError : outcome (list (tensor T) * list (tensor T))) /\
  forall images (ts : list (tensor T)), load_images b limit images = Ok ts -> load_data b limit images None = (Throw RuntimeError : outcome (list (tensor T) * list (tensor T))).
Proof. exact @file_missing. Qed.
(** The part that holds: a label file with fewer labels than asked for throws. *)
Theorem C67_labels_partial : forall {T} {S : Scalar T} b limit n lab have,
  1 <= b -> 0 <= n <= INT_MAX -> samples limit n <= INT_MAX -> Z.min b (samples limit n) * 10 <= INT_MAX ->
  (forall i, 0 <= i < n -> is_byte (lab i)) -> 0 <= have <= n -> have < samples limit n ->
  load_labels b limit (Some (label_header n ++ map lab (zrange 0 have))) = (Throw OutOfRange : outcome (list (tensor T))).
Proof.
  exact (fun T S b limit n lab have Hb Hn Hs HM HF Hh Hlt => labels_bad_file b limit n lab have Hb Hn Hs HM HF Hh
           (ex_intro _ have (conj (conj (proj1 Hh) Hlt) (or_introl (Z.le_refl have))))).
Qed.
Example C67_case : 2 < samples (-1) 3 /\
  load_labels (T := Z) 2 (-1) (Some (label_header 3 ++ map (fun i => i) (zrange 0 2))) = Throw OutOfRange.
Proof. vm_compute. auto. Qed.
Print Assumptions C67_images_refuted.
Print Assumptions C67_header_refuted.
Print Assumptions C67_missing_pixels_are_white.
Print Assumptions C67_short_header.
Print Assumptions C67_labels_partial.
Print Assumptions C67_no_file.

(** ** C68.  [line_point]: x from the uniform distribution on 0..100, then y = 2x + 3 + noise.  [drawn next g i] is the
    i-th draw from the generator state [g]; [to_d], [to_f] convert between the element type and double. *)
Theorem C68_linear : forall {T D G} {ST : Scalar T} {SD : Scalar D} {RG : Rng D G} (to_d : T -> D) (to_f : D -> T) noise n (g : G),
  let next := line_point to_d to_f (rng_uniform (s_z 0) (s_z 100)) (rng_normal (to_d noise)) in
  gen_linear to_d to_f n noise g =
    Ok (map (fun i => tensor_of [1] (fun _ => fst (drawn next g i))) (zrange 0 n),
        map (fun i => tensor_of [1] (fun _ => snd (drawn next g i))) (zrange 0 n)).
Proof. exact @gen_linear_ok. Qed.
Theorem C68_batched : forall {T D G} {ST : Scalar T} {SD : Scalar D} {RG : Rng D G} (to_d : T -> D) (to_f : D -> T) noise n b (g : G),
  0 <= n -> 1 <= b -> n + b <= INT_MAX ->
  let next := line_point to_d to_f (rng_uniform (s_z 0) (s_z 100)) (rng_normal (to_d noise)) in
  gen_batched to_d to_f n b noise g =
    Ok (batches n b (fun st len => tensor_of [len; 1] (fn2 (fun r _ => fst (drawn next g (st + r))))),
        batches n b (fun st len => tensor_of [len; 1] (fn2 (fun r _ => snd (drawn next g (st + r)))))).
Proof. exact @gen_batched_ok. Qed.
Theorem C68_sizes : forall {T D G} {ST : Scalar T} {SD : Scalar D} {RG : Rng D G} (to_d : T -> D) (to_f : D -> T) noise n b (g : G),
  0 <= n -> 1 <= b -> n + b <= INT_MAX ->
  exists xs ys, gen_batched to_d to_f n b noise g = Ok (xs, ys) /\ length xs = length ys /\
    Zlen xs = num_batches n b /\ map height xs = map height ys /\
    Forall (fun t => 1 <= height t <= b) xs /\ total (map height xs) = n.
Proof. exact @gen_sizes. Qed.
Example C68_case : 0 <= 5 /\ 1 <= 2 /\ 5 + 2 <= INT_MAX /\
  match gen_batched (RG := counter_rng) (fun x : Z => x) (fun x : Z => x) 5 2 1 (0 : Z) with
  | Ok (xs, ys) => map tdims xs = [[2; 1]; [2; 1]; [1; 1]] /\ map tdims ys = [[2; 1]; [2; 1]; [1; 1]]
  | _ => False
  end.
Proof. repeat split; try lia; vm_compute; auto; discriminate. Qed.
Print Assumptions C68_linear.
Print Assumptions C68_batched.
Print Assumptions C68_sizes.

(** ** C80 *)
Theorem C80_aligned : forall {T} {S : Scalar T}, bytes_scale (T := T) -> forall b limit n rows cols img lab ex ex',
  1 <= b -> 0 <= n <= INT_MAX -> 1 <= rows <= INT_MAX -> 1 <= cols <= INT_MAX -> 0 <= samples limit n <= n ->
  Z.min b (samples limit n) * rows * cols <= INT_MAX -> Z.min b (samples limit n) * 10 <= INT_MAX ->
  num_batches (samples limit n) b * b <= INT_MAX ->
  (forall i r c, 0 <= i < n -> 0 <= r < rows -> 0 <= c < cols -> is_byte (img i r c)) -> Forall is_byte ex ->
  (forall i, 0 <= i < samples limit n -> 0 <= lab i <= 9) ->
  exists (xs ys : list (tensor T)),
    load_data b limit (Some (image_file n rows cols img ++ ex)) (Some (label_file n lab ++ ex')) = Ok (xs, ys) /\
    length xs = length ys /\ map height xs = map height ys /\ total (map height xs) = samples limit n /\
    forall k j d, 0 <= k < Zlen xs -> 0 <= j < height (znth d xs k) ->
      (forall r c, 0 <= r < rows -> 0 <= c < cols -> el (znth d xs k) [j; 0; r; c] = scaled (img (k * b + j) r c)) /\
      (forall c, 0 <= c < 10 -> el (znth d ys k) [j; c] = if c =? lab (k * b + j) then one else zero).
Proof. exact @data_aligned. Qed.
(** Files announcing different numbers of samples are accepted too, each loaded to its own length. *)
Theorem C80_mismatch_accepted : forall {T} {S : Scalar T}, bytes_scale (T := T) -> forall b limit ni nl rows cols img lab ex ex',
  1 <= b -> 0 <= ni <= INT_MAX -> 0 <= nl <= INT_MAX -> 1 <= rows <= INT_MAX -> 1 <= cols <= INT_MAX ->
  samples limit ni <= ni -> samples limit nl <= nl ->
  Z.min b (samples limit ni) * rows * cols <= INT_MAX -> Z.min b (samples limit nl) * 10 <= INT_MAX ->
  num_batches (samples limit ni) b * b <= INT_MAX -> num_batches (samples limit nl) b * b <= INT_MAX ->
  (forall i r c, 0 <= i < ni -> 0 <= r < rows -> 0 <= c < cols -> is_byte (img i r c)) -> Forall is_byte ex ->
  (forall i, 0 <= i < samples limit nl -> 0 <= lab i <= 9) ->
  load_data b limit (Some (image_file ni rows cols img ++ ex)) (Some (label_file nl lab ++ ex')) =
    Ok (batches (samples limit ni) b (image_batch rows cols img : Z -> Z -> tensor T),
        batches (samples limit nl) b (label_batch lab : Z -> Z -> tensor T)).
Proof. exact @data_ok. Qed.
Example C80_case : forall lm, let S := F32Scalar lm in
  match load_data 2 (-1) (Some (image_file 3 2 2 imgZ)) (Some (label_file 3 (fun i => i))) with
  | Ok ([a; b], [c; d]) => tdims a = [2; 1; 2; 2] /\ tdims b = [1; 1; 2; 2] /\ tdims c = [2; 10] /\ tdims d = [1; 10]
  | _ => False
  end.
Proof. intros lm. vm_compute. auto. Qed.
Print Assumptions C80_aligned.
Print Assumptions C80_mismatch_accepted.

(** ** C81 *)
Theorem C81_picture : forall lm, let S := F32Scalar lm in forall (t : tensor f32) lead h w bt,
  good t -> tdims t = lead ++ [h; w] -> 28 <= h -> 28 <= w ->
  (forall i j, 0 <= i < h -> 0 <= j < w -> is_byte (bt i j) /\ el t (zrepeat 0 (Zlen lead) ++ [i; j]) = scaled (bt i j)) ->
  to_ascii_art t = Ok (picture 28 28 (fun i j => Z.min 9 (bt i j * 10 / 255))).
Proof. exact art_ok. Qed.
Theorem C81_small : forall lm, let S := F32Scalar lm in forall (t : tensor f32) lead h w bt,
  good t -> tdims t = lead ++ [h; w] -> (h < 28 \/ w < 28) ->
  (forall i j, 0 <= i < h -> 0 <= j < w -> is_byte (bt i j) /\ el t (zrepeat 0 (Zlen lead) ++ [i; j]) = scaled (bt i j)) ->
  to_ascii_art t = Throw OutOfRange.
Proof. exact art_small. Qed.
Definition inkZ (i j : Z) : Z := (9 * i + j) mod 256.
Definition artF (lm : libm) : tensor f32 :=
  let S := F32Scalar lm in tensor_of [2; 28; 28] (fn3 (fun _ i j => scaled (inkZ i j))).
Example C81_case : forall lm, let S := F32Scalar lm in good (artF lm) /\ tdims (artF lm) = [2] ++ [28; 28] /\
  (forall i j, 0 <= i < 28 -> 0 <= j < 28 -> is_byte (inkZ i j) /\ el (artF lm) (zrepeat 0 (Zlen [2]) ++ [i; j]) = scaled (inkZ i j)) /\
  to_ascii_art (artF lm) = Ok (picture 28 28 (fun i j => Z.min 9 (inkZ i j * 10 / 255))).
Proof.
  intros lm. cbv zeta. assert (G : good (artF lm)).
  { apply good_tensor_of; [apply pos3; lia|vm_compute; discriminate]. }
  assert (E : forall i j, 0 <= i < 28 -> 0 <= j < 28 -> is_byte (inkZ i j) /\
    @el _ (F32Scalar lm) (artF lm) (zrepeat 0 (Zlen [2]) ++ [i; j]) = @scaled _ (F32Scalar lm) (inkZ i j)).
  { intros i j Hi Hj. split; [unfold is_byte, inkZ; pose proof (Z.mod_pos_bound (9 * i + j) 256); lia|].
    change (zrepeat 0 (Zlen [2]) ++ [i; j]) with [0; i; j]. unfold artF.
    rewrite (@el_tensor_of _ (F32Scalar lm)) by (apply in_range3; lia). reflexivity. }
  split; [exact G|]. split; [reflexivity|]. split; [exact E|]. apply (art_ok lm _ [2] 28 28 inkZ); auto; lia.
Qed.
(** Any image of floats at least 28 by 28: each of the 28 by 28 characters shows ten times its pixel, cut to a whole number, and 9 above that. *)
Theorem C81_any_image : forall lm, let S := F32Scalar lm in forall (t : tensor f32) lead h w lv, good t -> tdims t = lead ++ [h; w] -> 28 <= h -> 28 <= w ->
  (forall i j, 0 <= i < 28 -> 0 <= j < 28 -> level_of (s_mul (el t (zrepeat 0 (Zlen lead) ++ [i; j])) (s_z 10)) (lv i j)) ->
  to_ascii_art t = Ok (picture 28 28 (fun i j => Z.min 9 (lv i j))).
Proof. exact picture_any. Qed.
(** One pixel that is infinite, not a number, at most about -1/10 or huge makes the behaviour undefined; there is no third case. *)
Theorem C81_off_scale : forall lm, let S := F32Scalar lm in forall (t : tensor f32) lead h w i j, good t -> tdims t = lead ++ [h; w] -> 28 <= h -> 28 <= w -> 0 <= i < 28 -> 0 <= j < 28 ->
  off_scale (s_mul (el t (zrepeat 0 (Zlen lead) ++ [i; j])) (s_z 10)) -> to_ascii_art t = UB.
Proof. exact picture_off. Qed.
Theorem C81_level_or_off_scale : forall x, off_scale x \/ exists k, level_of x k.
Proof. exact level_or_off. Qed.
(** An image with values 0, 1/2, 1, ..., and one of the values 0, -1/2, -1, ... *)
Definition steps (s : Z) (lm : libm) : tensor f32 := let S := F32Scalar lm in tensor_of [28; 28] (fn2 (fun i j => s_div (s_z (s * (i + j))) (s_z 2))).
Example C81_any_case : forall lm, to_ascii_art (steps 1 lm) = Ok (picture 28 28 (fun i j => Z.min 9 (5 * (i + j)))) /\ to_ascii_art (steps (-1) lm) = UB.
Proof. intros lm. split; vm_compute; reflexivity. Qed.
Print Assumptions C81_any_image.
Print Assumptions C81_off_scale.
Print Assumptions C81_level_or_off_scale.
Print Assumptions C81_picture.
Print Assumptions C81_small.
