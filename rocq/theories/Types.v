(** * Types: the data representation of shapes and tensors. *)
From Verif Require Import Base.

(** [struct Shape] (Shape/Shape.hpp:105-108): the three members are kept
    separately, so a shape whose size or strides do not match its dimensions
    (for instance a moved-from one) is representable. *)
Record shape := mkShape {
  dims    : list Z;   (* _dimensions *)
  ssize   : Z;        (* _size *)
  sstride : list Z    (* _stride *)
}.

(** [TensorData] (Tensor/TensorData.hpp:64-65) and [Tensor], which only wraps
    it (Tensor/Tensor.hpp): a shape and an owned buffer.  A null buffer is []. *)
Record tensor (T : Type) := mkTensor {
  tshape : shape;
  tdata  : list T
}.
Arguments mkTensor {T}.
Arguments tshape {T}.
Arguments tdata {T}.

Definition tdims {T} (t : tensor T) : list Z := dims (tshape t).
