(** * SpecData: the IDX file format and batched data sets, independent of the model *)
From Coq Require Import Ascii String Floats.SpecFloat.
From Verif Require Import Base Scalar Types Spec.
Local Open Scope Z_scope.
Local Open Scope list_scope.

Definition is_byte (b : Z) : Prop := 0 <= b <= 255.

(** A 32-bit number in big-endian byte order. *)
Definition be32 (z : Z) : list Z :=
  [z / 16777216 mod 256; z / 65536 mod 256; z / 256 mod 256; z mod 256].

(** IDX image file: magic number 2051, number of images, rows, columns, then the
    pixels image by image, row by row. *)
Definition image_header (n rows cols : Z) : list Z := be32 2051 ++ be32 n ++ be32 rows ++ be32 cols.
Definition pixels (n rows cols : Z) (img : Z -> Z -> Z -> Z) : list Z :=
  flat_map (fun i => flat_map (fun r => map (fun c => img i r c) (zrange 0 cols)) (zrange 0 rows)) (zrange 0 n).
Definition image_file (n rows cols : Z) (img : Z -> Z -> Z -> Z) : list Z :=
  image_header n rows cols ++ pixels n rows cols img.

(** IDX label file: magic number 2049, number of labels, the labels. *)
Definition label_header (n : Z) : list Z := be32 2049 ++ be32 n.
Definition label_file (n : Z) (lab : Z -> Z) : list Z := label_header n ++ map lab (zrange 0 n).

(** The number of samples a loader created with limit [limit] takes from a file
    announcing [n]; -1 is "no limit". *)
Definition samples (limit n : Z) : Z := if limit =? -1 then n else limit.

(** Splitting [n] samples into batches of [b]: batch [k] starts at sample [k*b]
    and holds [b] samples, the last one what remains. *)
Definition num_batches (n b : Z) : Z := (n + b - 1) / b.
Definition batch_len (n b k : Z) : Z := Z.min b (n - k * b).
Definition batches {A} (n b : Z) (g : Z -> Z -> A) : list A :=
  map (fun k => g (k * b) (batch_len n b k)) (zrange 0 (num_batches n b)).


(** First dimension of a tensor: the number of samples in a batch. *)
Definition height {T} (t : tensor T) : Z := nth 0 (tdims t) 0.
Definition total (l : list Z) : Z := fold_right Z.add 0 l.

Section S.
Context {T : Type} {S : Scalar T}.

(** A byte as a number between 0 and 1. *)
Definition scaled (b : Z) : T := s_div (s_z b) (s_z 255).

(** Every scaled byte compares as being between 0 and 1. *)
Definition bytes_scale : Prop :=
  forall b, is_byte b -> s_lt (scaled b) zero = false /\ s_lt one (scaled b) = false.

(** The images [start .. start+len-1] as one tensor. *)
Definition image_batch (rows cols : Z) (img : Z -> Z -> Z -> Z) (start len : Z) : tensor T :=
  tensor_of [len; 1; rows; cols] (fn4 (fun j _ r c => scaled (img (start + j) r c))).

(** The labels [start .. start+len-1], one-hot, as one tensor. *)
Definition label_batch (lab : Z -> Z) (start len : Z) : tensor T :=
  tensor_of [len; 10] (fn2 (fun j c => if c =? lab (start + j) then one else zero)).

End S.

(** ** ASCII art *)

(** Ten levels of intensity, from blank to full. *)
Definition level_char (k : Z) : ascii :=
  znth " "%char (list_ascii_of_string " .:-=+*#%@") k.
(** The picture: rows of characters, each followed by a newline. *)
Definition picture (h w : Z) (lv : Z -> Z -> Z) : list ascii :=
  flat_map (fun i => map (fun j => level_char (lv i j)) (zrange 0 w) ++ [ascii_of_nat 10]) (zrange 0 h).

(** ** Random samples *)
Section Stream.
Context {X G : Type}.
(** The state of a random source after [n] draws. *)
Fixpoint after (next : G -> X * G) (n : nat) (g : G) : G :=
  match n with O => g | Datatypes.S n' => after next n' (snd (next g)) end.
(** The [i]-th value drawn. *)
Definition drawn (next : G -> X * G) (g : G) (i : Z) : X := fst (next (after next (Z.to_nat i) g)).
End Stream.

(** A noisy point of the line y = 2x + 3: x is drawn from [uniform], then the
    noise from [normal]; the sum with the noise is made in the wider type [D]. *)
Section Line.
Context {T D G : Type} {ST : Scalar T} {SD : Scalar D}.
Variables (to_d : T -> D) (to_f : D -> T) (uniform normal : G -> D * G).
Definition line_point (g : G) : (T * T) * G :=
  let (u, g1) := uniform g in
  let (e, g2) := normal g1 in
  ((to_f u, to_f (s_add (to_d (s_add (s_mul (s_z 2) (to_f u)) (s_z 3))) e)), g2).
End Line.
