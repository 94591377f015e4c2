(** * Property C69: the parallel loops

    [schedule_independent ps m] (SpecPar.v): under every interleaving of the memory accesses of the iterations [ps] there is
    no data race, the loop finishes, and memory ends as after the sequential loop.  [holds m a l]: array [a] contains [l]. *)
From Coq Require Import Reals Lra Permutation SpecFloat.
From Verif Require Import Base Scalar ScalarR Types Spec M_Shape M_Tensor M_Adv M_Layers M_Opt M_Par M_Col SpecR SpecPar SpecNN SpecCol
  L_Index L_Shape L_Tensor L_Matmul L_RSum L_Opt L_Par L_ParCol.
Local Open Scope Z_scope.

(** ** Pair-wise apply.  Arrays 0 and 1 are the operands, 2 the result. *)
Theorem C69_apply_pair : forall {T} {S : Scalar T} f (a b r : tensor T) m, good a -> good b -> t_apply_pair f a b = Ok r ->
  holds m 0 (tdata a) -> holds m 1 (tdata b) ->
  schedule_independent (pair_loop f (ssize (tshape a))) m /\
  forall m', final (pair_loop f (ssize (tshape a))) m m' -> holds m' 2 (tdata r).
Proof. exact @pair_par. Qed.
Print Assumptions C69_apply_pair.

(** ** Matrix-vector and matrix-matrix product, same arrays. *)
Theorem C69_matvec : forall {T} {S : Scalar T} (a b r : tensor T) m n mm, good a -> good b -> tdims a = [m; n] -> tdims b = [n] -> t_matvec a b = Ok r ->
  holds mm 0 (tdata a) -> holds mm 1 (tdata b) ->
  schedule_independent (vec_loop m n) mm /\
  forall m', final (vec_loop m n) mm m' -> holds m' 2 (tdata r).
Proof. exact @vec_par. Qed.
Print Assumptions C69_matvec.

Theorem C69_matmat : forall {T} {S : Scalar T} (a b r : tensor T) m k n mm, good a -> good b -> tdims a = [m; k] -> tdims b = [k; n] ->
  m * n <= INT_MAX -> t_matmat a b = Ok r ->
  holds mm 0 (tdata a) -> holds mm 1 (tdata b) ->
  schedule_independent (mat_loop m k n) mm /\
  forall m', final (mat_loop m k n) mm m' -> holds m' 2 (tdata r).
Proof. exact @mat_par. Qed.
Print Assumptions C69_matmat.

(** The lanes of a simd reduction: any split of the terms gives the same sum over the reals ... *)
Theorem C69_reduction : forall (terms : list R) (lanes : list (list R)), Permutation (concat lanes) terms -> fsum (map fsum lanes) = fsum terms.
Proof. exact lanes_sum. Qed.
Print Assumptions C69_reduction.
(** ... but not in float. *)
Theorem C69_reduction_refuted : forall lm, let S := F32Scalar lm in
  exists (terms : list f32) lanes, Permutation (concat lanes) terms /\ fsum (map fsum lanes) <> fsum terms.
Proof. exact lanes_float. Qed.
Print Assumptions C69_reduction_refuted.

(** ** Adam's update of one tensor.  Arrays: 0 weights, 1 gradient, 2 and 3 the moments. *)
Theorem C69_adam : forall {T} {S : Scalar T} (o o' : adam T) k (w g w' : tensor T) m,
  let mt := buf_get (ad_m o) k (tshape w) in let vt := buf_get (ad_v o) k (tshape w) in
  good w -> good g -> tdims g = tdims w -> good mt -> tdims mt = tdims w -> good vt -> tdims vt = tdims w ->
  adam_update o k w g tt = (o', Ok w') ->
  holds m 0 (tdata w) -> holds m 1 (tdata g) -> holds m 2 (tdata mt) -> holds m 3 (tdata vt) ->
  schedule_independent (adam_par o (adam_alpha o) (ssize (tshape w))) m /\
  forall m', final (adam_par o (adam_alpha o) (ssize (tshape w))) m m' ->
    holds m' 0 (tdata w') /\ exists mt' vt', ad_m o' k = Some mt' /\ ad_v o' k = Some vt' /\ holds m' 2 (tdata mt') /\ holds m' 3 (tdata vt').
Proof. exact @adam_update_par. Qed.
Print Assumptions C69_adam.

(** ** Transpose.  Arrays: 0 the tensor, 1 the result, 2 and 3 the shared index vectors.  A schedule loses element 10. *)
Theorem C69_transpose_refuted : exists (t r : tensor Z) m m', good t /\ t_transpose t 0 1 = Ok r /\
  holds m 0 (map Elem (tdata t)) /\
  holds (exec_all (transpose_loop (tshape t) (tshape r) [1; 0]) m) 1 (map Elem (tdata r)) /\
  final (transpose_loop (tshape t) (tshape r) [1; 0]) m m' /\ ~ holds m' 1 (map Elem (tdata r)).
Proof. exact tr_refuted. Qed.
Print Assumptions C69_transpose_refuted.

(** Every transpose of two or more elements has a data race. *)
Theorem C69_transpose_race : forall {T} (s s' : shape) perm (m : mem (cell T)), pos_dims (dims s) -> 2 <= ssize s ->
  ~ race_free (transpose_loop s s' perm) m.
Proof. exact @transpose_race. Qed.
Print Assumptions C69_transpose_race.

(** Run by one thread, the loop transposes any two axes of any tensor; array 1 starts as the new tensor. *)
Theorem C69_transpose_sequential : forall {T} {S : Scalar T} (t r : tensor T) i j (m : mem (cell T)), t_transpose t i j = Ok r ->
  holds m 0 (map Elem (tdata t)) -> holds m 1 (map Elem (tdata (t_new (tshape r)))) ->
  holds (exec_all (transpose_loop (tshape t) (tshape r) (axes_swapped (rank (tshape t)) i j)) m) 1 (map Elem (tdata r)).
Proof. exact @transpose_seq. Qed.
Print Assumptions C69_transpose_sequential.

(** ** Random tensors.  Every loop of two or more draws races on the random engine, and some schedule draws the
    first two elements from the same engine state instead of successive ones. *)
Theorem C69_random_race : forall {T G} {S : Scalar T} {RG : Rng T G} (mn mx : T) size (m : mem (rcell T G)) g, 2 <= size -> m 0 0 = Engine g ->
  ~ race_free (rand_loop (he_rand_range (s_z size) mn mx) size) m.
Proof. exact (fun T G S RG mn mx size => rand_race (he_rand_range (s_z size) mn mx) size). Qed.
Print Assumptions C69_random_race.

Theorem C69_random_same_draw : forall {T G} {S : Scalar T} {RG : Rng T G} (mn mx : T) size (m : mem (rcell T G)) g, 2 <= size -> m 0 0 = Engine g ->
  let draw := he_rand_range (s_z size) mn mx in
  (exists m', final (rand_loop draw size) m m' /\ m' 1 0 = Value (fst (draw g)) /\ m' 1 1 = Value (fst (draw g))) /\
  exec_all (rand_loop draw size) m 1 0 = Value (fst (draw g)) /\ exec_all (rand_loop draw size) m 1 1 = Value (fst (draw (snd (draw g)))).
Proof. exact (fun T G S RG mn mx size m g H1 H2 => conj (rand_twice _ size m g H1 H2) (rand_seq2 _ size m g H1 H2)). Qed.
Print Assumptions C69_random_same_draw.

(** Run by one thread, the loop fills the tensor and moves the engine as TensorOperations::random does. *)
Theorem C69_random_sequential : forall {T G} {S : Scalar T} {RG : Rng T G} ds (mn mx : T) (g : G) r g' (m : mem (rcell T G)),
  f_random ds mn mx g = Ok (r, g') -> m 0 0 = Engine g -> holds m 1 (map Value (tdata (t_new (tshape r)))) ->
  let m' := exec_all (rand_loop (he_rand_range (s_z (ssize (tshape r))) mn mx) (ssize (tshape r))) m in
  holds m' 1 (map Value (tdata r)) /\ m' 0 0 = Engine g'.
Proof. exact @random_seq. Qed.
Print Assumptions C69_random_sequential.

(** ** The patch functions of the convolution layer, one iteration per image and channel.  Arrays: 0 the argument, 1 the
    result, which starts as a new tensor of zeros. *)
Theorem C69_im2col : forall {T} {S : Scalar T} n ic h w kh kw stride pad dil, patches_fit n ic h w kh kw stride pad dil -> 0 < n -> 0 < ic -> 0 < h -> 0 < w ->
  let oh := conv_extent stride pad dil h kh in let ow := conv_extent stride pad dil w kw in let cells := [ic * (kh * kw); n * (oh * ow)] in
  forall (x : tensor T) m, good x -> tdims x = [n; ic; h; w] -> holds m 0 (tdata x) -> holds m 1 (tdata (t_new (shape_of cells) : tensor T)) ->
  let loop := im2col_loop (tshape x) (shape_of cells) kh kw stride pad dil n ic h w oh ow in
  exists r, im2col x kh kw stride pad dil = Ok r /\ tshape r = shape_of cells /\ schedule_independent loop m /\ forall m', final loop m m' -> holds m' 1 (tdata r).
Proof. exact @im2col_par. Qed.
Print Assumptions C69_im2col.
Theorem C69_col2im : forall {T} {S : Scalar T} n ic h w kh kw stride pad dil, patches_fit n ic h w kh kw stride pad dil -> 0 < n -> 0 < ic -> 0 < h -> 0 < w ->
  let oh := conv_extent stride pad dil h kh in let ow := conv_extent stride pad dil w kw in let cells := [ic * (kh * kw); n * (oh * ow)] in
  forall (c : tensor T) m, n * (ic * (h * w)) <= INT_MAX -> good c -> tdims c = cells -> holds m 0 (tdata c) -> holds m 1 (tdata (t_fill (shape_of [n; ic; h; w]) zero : tensor T)) ->
  let loop := col2im_loop (tshape c) (shape_of [n; ic; h; w]) kh kw stride pad dil n ic h w oh ow in
  exists r, col2im c (shape_of [n; ic; h; w]) kh kw stride pad dil = Ok r /\ schedule_independent loop m /\ forall m', final loop m m' -> holds m' 1 (tdata r).
Proof. exact @col2im_par. Qed.
Print Assumptions C69_col2im.

(** ** The hypotheses are met *)
Definition aZ : tensor Z := tensor_of [2; 3] (fn2 (fun i j => 3 * i + j)).
Definition bZ : tensor Z := tensor_of [3; 2] (fn2 (fun i j => i - j)).
Definition vZ : tensor Z := tensor_of [3] (fn1 (fun i => i + 5)).
Definition mem_of (ls : list (list Z)) : mem Z := fun a i => znth 0 (znth [] ls a) i.
Lemma mem_of_holds : forall ls a, holds (mem_of ls) a (znth [] ls a).
Proof. intros ls a d i Hi. apply nth_indep. unfold Zlen in Hi. lia. Qed.
Example C69_cases : good aZ /\ good bZ /\ good vZ /\
  holds (mem_of [tdata aZ; tdata aZ]) 0 (tdata aZ) /\ holds (mem_of [tdata aZ; tdata aZ]) 1 (tdata aZ) /\
  t_apply_pair Z.add aZ aZ = Ok (tensor_of [2; 3] (fn2 (fun i j => 6 * i + 2 * j))) /\
  (exists r, t_matvec aZ vZ = Ok r /\ tdata r = [20; 74]) /\
  exists r, t_matmat aZ bZ = Ok r /\ tdata r = [5; 2; 14; 2].
Proof.
  split; [apply good_tensor_of; [split; [discriminate|repeat constructor]|vm_compute; discriminate]|].
  split; [apply good_tensor_of; [split; [discriminate|repeat constructor]|vm_compute; discriminate]|].
  split; [apply good_tensor_of; [split; [discriminate|repeat constructor]|vm_compute; discriminate]|].
  split; [exact (mem_of_holds [tdata aZ; tdata aZ] 0)|]. split; [exact (mem_of_holds [tdata aZ; tdata aZ] 1)|].
  split; [vm_compute; reflexivity|]. split; eexists; vm_compute; split; reflexivity.
Qed.
Definition adamZ : adam Z := adam_new 1 0 0 1 0 2 0 1.
Example C69_adam_case : let mt := buf_get (ad_m adamZ) 7 (tshape vZ) in
  good mt /\ tdims mt = tdims vZ /\ exists o' w', adam_update adamZ 7 vZ vZ tt = (o', Ok w') /\ tdata w' <> tdata vZ.
Proof.
  assert (H : buf_get (ad_m adamZ) 7 (tshape vZ) = tensor_of [3] (fn1 (fun _ => 0))) by (vm_compute; reflexivity). cbv zeta. rewrite H.
  split; [apply good_tensor_of; [split; [discriminate|repeat constructor]|vm_compute; discriminate]|].
  split; [reflexivity|]. do 2 eexists. split; [vm_compute; reflexivity|]. vm_compute. discriminate.
Qed.
Definition count3 : Rng Z Z := {| rng_seed := fun g => g; rng_normal := fun _ g => (g, g + 1); rng_uniform := fun _ _ g => (g, g + 1) |}.
(** A tensor of three axes, and three draws from an engine that counts. *)
Example C69_sequential_case : let t := tensor_of [2; 3; 4] (fun idx => ravel [2; 3; 4] idx) in
  let m : mem (cell Z) := fun a i => if a =? 0 then Elem i else Elem 0 in
  (exists r, t_transpose t 0 2 = Ok r /\ tdims r = [4; 3; 2] /\ holds m 0 (map Elem (tdata t)) /\ holds m 1 (map Elem (tdata (t_new (tshape r))))) /\
  exists r g', f_random (H := count3) [3] 0 9 5 = Ok (r, g') /\ tdata r = [5; 6; 7] /\ g' = 8 /\
    holds (fun a i => if a =? 0 then Engine 5 else Value 0 : rcell Z Z) 1 (map Value (tdata (t_new (tshape r)))).
Proof.
  cbv zeta. split.
  - eexists. split; [vm_compute; reflexivity|]. split; [reflexivity|]. split; intros d i Hi.
    + assert (E : map (Elem (T := Z)) (tdata (tensor_of [2; 3; 4] (fun idx => ravel [2; 3; 4] idx))) = map Elem (zrange 0 24)) by (vm_compute; reflexivity). rewrite E in *.
      rewrite Zlen_map, Zlen_zrange in Hi by lia. rewrite (znth_map 0) by (rewrite Zlen_zrange; lia). rewrite znth_zrange by lia. reflexivity.
    + match goal with |- context [map Elem ?l] => assert (E : map (Elem (T := Z)) l = map Elem (zrepeat 0 24)) by (vm_compute; reflexivity); rewrite E in * end.
      rewrite Zlen_map in Hi. rewrite (znth_map 0) by exact Hi. rewrite znth_zrepeat; [reflexivity|]. rewrite Zlen_zrepeat in Hi by lia. lia.
  - do 2 eexists. split; [vm_compute; reflexivity|]. split; [reflexivity|]. split; [reflexivity|]. intros d i Hi.
    match goal with |- context [map Value ?l] => assert (E : map (Value (T := Z) (G := Z)) l = map Value (zrepeat 0 3)) by (vm_compute; reflexivity); rewrite E in * end.
    rewrite Zlen_map in Hi. rewrite (znth_map 0) by exact Hi. rewrite znth_zrepeat; [reflexivity|]. rewrite Zlen_zrepeat in Hi by lia. lia.
Qed.
(** Two images of two channels: four iterations that each write to a quarter of the 8 x 8 matrix. *)
Example C69_col_case : let x := tensor_of [2; 2; 4; 3] (fun idx => ravel [2; 2; 4; 3] idx) in let m := mem_of [tdata x; zrepeat 0 64] in
  patches_fit 2 2 4 3 2 2 2 1 2 /\ conv_extent 2 1 2 4 2 = 2 /\ conv_extent 2 1 2 3 2 = 2 /\ good x /\ holds m 0 (tdata x) /\ holds m 1 (tdata (t_new (shape_of [8; 8]) : tensor Z)) /\
  Zlen (im2col_loop (tshape x) (shape_of [8; 8]) 2 2 2 1 2 2 2 4 3 2 2 : list (prog Z)) = 4.
Proof.
  cbv zeta. split; [unfold patches_fit; vm_compute; intuition congruence|]. split; [reflexivity|]. split; [reflexivity|].
  split; [apply good_tensor_of; [split; [discriminate|repeat constructor]|vm_compute; discriminate]|].
  split; [exact (mem_of_holds [tdata (tensor_of [2; 2; 4; 3] (fun idx => ravel [2; 2; 4; 3] idx)); zrepeat 0 64] 0)|].
  split; [|reflexivity]. exact (mem_of_holds [tdata (tensor_of [2; 2; 4; 3] (fun idx => ravel [2; 2; 4; 3] idx)); zrepeat 0 64] 1).
Qed.
