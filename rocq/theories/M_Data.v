(** * Model of Datasets/MNistLoader.hpp and Datasets/SampleGenerator.hpp

    A file is the list of its bytes (integers 0..255), or [None] when it cannot
    be opened.  An input stream is the list of bytes not yet read. *)
From Coq Require Import Ascii String Floats.SpecFloat.
From Verif Require Import Base Scalar Types M_Shape M_Tensor.
Local Open Scope Z_scope.
Local Open Scope list_scope.

Definition stream := list Z.

(** MNistLoader.hpp:130-134 readInt.  A short read leaves part of the local
    buffer uninitialised and the shifts then use indeterminate values: [UB].
    [b << 24] with b >= 128 is converted modulo 2^32 (C++14 and later). *)
Definition read_int (s : stream) : outcome (Z * stream) :=
  match s with
  | b0 :: b1 :: b2 :: b3 :: r => Ok (i32 (b0 * 16777216 + b1 * 65536 + b2 * 256 + b3), r)
  | _ => UB
  end.

(** MNistLoader.hpp:85,121: [unsigned char c = file.get()].  At the end of the
    file get() returns EOF = -1, which becomes 255. *)
Definition get_byte (s : stream) : Z * stream :=
  match s with [] => (255, []) | b :: r => (b, r) end.

(** MNistLoader.hpp:78-79,116-117: [for (i = 0; i < n; i += b)] with
    [min(b, n - i)] handed to the body.  [i += b] is signed arithmetic. *)
Fixpoint batch_loop {St} (fuel : nat) (b n i : Z) (body : Z -> St -> outcome St) (s : St) : outcome St :=
  match fuel with
  | O => Hang
  | Datatypes.S f =>
      if i <? n then
        s' <- body (Z.min b (n - i)) s ;;
        i' <- chk32 (i + b) ;;
        batch_loop f b n i' body s'
      else Ok s
  end.
Definition batched {St} (b n : Z) (body : Z -> St -> outcome St) (s : St) : outcome St :=
  batch_loop (Datatypes.S (Z.to_nat n)) b n 0 body s.

Section Loader.
Context {T : Type} {S : Scalar T}.

(** MNistLoader.hpp:85-89: one pixel. *)
Definition load_pixel (j k l : Z) (st : tensor T * stream) : outcome (tensor T * stream) :=
  let (t, s) := st in
  let (pixel, s') := get_byte s in
  t' <- t_at_set t [j; 0; k; l] (s_div (s_z pixel) (s_z 255)) ;;
  v <- t_at t' [j; 0; k; l] ;;
  if s_lt v zero || s_lt one v then Throw RuntimeError else Ok (t', s').

(** MNistLoader.hpp:81-93: one batch of images. *)
Definition load_image_batch (rows cols cur : Z) (st : list (tensor T) * stream)
  : outcome (list (tensor T) * stream) :=
  let (images, s) := st in
  sh <- new_shape [cur; 1; rows; cols] ;;
  '(image, s') <- for_ 0 cur (fun j => for_ 0 rows (fun k => for_ 0 cols (fun l => load_pixel j k l)))
                       (t_new sh, s) ;;
  Ok (images ++ [image], s').

(** MNistLoader.hpp:58-96 loadImages. *)
Definition load_images (batch_size num_samples : Z) (file : option stream) : outcome (list (tensor T)) :=
  match file with
  | None => Throw RuntimeError
  | Some s0 =>
      '(magic, s1) <- read_int s0 ;;
      '(n0, s2) <- read_int s1 ;;
      '(rows, s3) <- read_int s2 ;;
      '(cols, s4) <- read_int s3 ;;
      let n := if num_samples =? -1 then n0 else num_samples in
      if negb (magic =? 2051) then Throw RuntimeError
      else '(images, _) <- batched batch_size n (load_image_batch rows cols) ([], s4) ;;
           Ok images
  end.

(** MNistLoader.hpp:121-122: one label. *)
Definition load_label (j : Z) (st : tensor T * stream) : outcome (tensor T * stream) :=
  let (t, s) := st in
  let (digit, s') := get_byte s in
  t' <- t_at_set t [j; digit] one ;;
  Ok (t', s').

(** MNistLoader.hpp:119-124: one batch of labels. *)
Definition load_label_batch (cur : Z) (st : list (tensor T) * stream) : outcome (list (tensor T) * stream) :=
  let (labels, s) := st in
  sh <- new_shape [cur; 10] ;;
  '(label, s') <- for_ 0 cur load_label (t_fill sh zero, s) ;;
  Ok (labels ++ [label], s').

(** MNistLoader.hpp:98-128 loadLabels. *)
Definition load_labels (batch_size num_samples : Z) (file : option stream) : outcome (list (tensor T)) :=
  match file with
  | None => Throw RuntimeError
  | Some s0 =>
      '(magic, s1) <- read_int s0 ;;
      '(n0, s2) <- read_int s1 ;;
      let n := if num_samples =? -1 then n0 else num_samples in
      if negb (magic =? 2049) then Throw RuntimeError
      else '(labels, _) <- batched batch_size n load_label_batch ([], s2) ;;
           Ok labels
  end.

(** MNistLoader.hpp:19-23 loadData. *)
Definition load_data (batch_size num_samples : Z) (images labels : option stream)
  : outcome (list (tensor T) * list (tensor T)) :=
  i <- load_images batch_size num_samples images ;;
  l <- load_labels batch_size num_samples labels ;;
  Ok (i, l).

End Loader.

(** ** toAsciiArt, for float tensors *)

(** [static_cast<int>] of a float: truncation; out of range, infinite or NaN is UB. *)
Definition f32_to_int (x : f32) : outcome Z :=
  match x with
  | S754_zero _ => Ok 0
  | S754_finite sg m e =>
      let a := if 0 <=? e then Z.pos m * 2 ^ e else Z.pos m / 2 ^ (- e) in
      chk32 (if sg then - a else a)
  | _ => UB
  end.

(** MNistLoader.hpp:29: the palette, with its terminating NUL. *)
Definition ascii_chars : list ascii :=
  list_ascii_of_string " .:-=+*#%@" ++ [Ascii.zero].

(** MNistLoader.hpp:40-44: the character of one value. *)
Definition ascii_char (v : f32) : outcome ascii :=
  k <- f32_to_int (SFmul f32_prec f32_emax v (f32_of_Z 10)) ;;
  rd ascii_chars (Z.min k 9).

Definition newline : ascii := ascii_of_nat 10.

(** MNistLoader.hpp:25-50 toAsciiArt.  [rank() - 2] is a size_t; for rank 1 it
    wraps and the vector constructor throws std::length_error. *)
Definition to_ascii_art (input : tensor f32) : outcome (list ascii) :=
  let r := Zlen (tdims input) in
  if r <? 2 then Throw LengthError
  else for_ 0 28 (fun i out =>
         out' <- for_ 0 28 (fun j out =>
                   v <- t_at input (zrepeat 0 (r - 2) ++ [i; j]) ;;
                   c <- ascii_char v ;;
                   Ok (out ++ [c])) out ;;
         Ok (out' ++ [newline])) [].

(** ** SampleGenerator.hpp

    The distributions produce [double]s ([D]); the tensors hold [float]s ([T]).
    [to_d] and [to_f] are the conversions.  The generator starts in an arbitrary
    state (std::random_device). *)
Section Generator.
Context {T D G : Type} {ST : Scalar T} {SD : Scalar D} {RG : Rng D G}.
Variables (to_d : T -> D) (to_f : D -> T).

(** SampleGenerator.hpp:21-22 and 51-52 (both copies of the loop body). *)
Definition gen_pair (noise : T) (g : G) : (T * T) * G :=
  let (dx, g1) := rng_uniform (s_z 0) (s_z 100) g in
  let x := to_f dx in
  let (dn, g2) := rng_normal (to_d noise) g1 in
  let y := to_f (s_add (to_d (s_add (s_mul (s_z 2) x) (s_z 3))) dn) in
  ((x, y), g2).

(** SampleGenerator.hpp:11-31 generateLinearDataset. *)
Definition gen_linear (num_samples : Z) (noise : T) (g : G)
  : outcome (list (tensor T) * list (tensor T)) :=
  '(ins, outs, _) <- for_ 0 num_samples (fun _ '(ins, outs, g) =>
      let '((x, y), g') := gen_pair noise g in
      s1 <- new_shape [1] ;;
      s2 <- new_shape [1] ;;
      Ok (ins ++ [t_fill s1 x], outs ++ [t_fill s2 y], g')) ([], [], g) ;;
  Ok (ins, outs).

(** SampleGenerator.hpp:33-63 generateBatchedLinearDataset. *)
Definition gen_batched (num_samples batch_size : Z) (noise : T) (g : G)
  : outcome (list (tensor T) * list (tensor T)) :=
  a <- chk32 (num_samples + batch_size) ;;
  a <- chk32 (a - 1) ;;
  if batch_size =? 0 then UB
  else
    nb <- chk32 (Z.quot a batch_size) ;;
    '(ins, outs, _) <- for_ 0 nb (fun batch '(ins, outs, g) =>
        o <- chk32 (batch * batch_size) ;;
        rest <- chk32 (num_samples - o) ;;
        let cur := Z.min batch_size rest in
        s1 <- new_shape [cur; 1] ;;
        s2 <- new_shape [cur; 1] ;;
        '(ib, tb, g') <- for_ 0 cur (fun i '(ib, tb, g) =>
            let '((x, y), g') := gen_pair noise g in
            ib' <- t_at_set ib [i; 0] x ;;
            tb' <- t_at_set tb [i; 0] y ;;
            Ok (ib', tb', g')) (t_new s1, t_new s2, g) ;;
        Ok (ins ++ [ib], outs ++ [tb], g')) ([], [], g) ;;
    Ok (ins, outs).

End Generator.
