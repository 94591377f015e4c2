(** * Specification: patches of images (C120) *)
From Verif Require Import Base Scalar Types Spec SpecNN.

Section S.
Context {T : Type} {S : Scalar T}.
(** A kernel of kh x kw with the given options fits (n, ic, h, w) images, and all sizes are [int]s. *)
Definition patches_fit (n ic h w kh kw stride pad dil : Z) : Prop :=
  0 < kh /\ 0 < kw /\ 0 < stride /\ 0 <= pad /\ 0 < dil /\ dil * (kh - 1) < h + 2 * pad <= INT_MAX /\ dil * (kw - 1) < w + 2 * pad <= INT_MAX /\
  ic * (kh * kw) * (n * (conv_extent stride pad dil h kh * conv_extent stride pad dil w kw)) <= INT_MAX.
(** The matrix with a row for each (channel, kernel row, kernel column) and a column for each (image, output row, output
    column), both in row-major order: what the kernel sees there. *)
Definition patches (n ic h w kh kw stride pad dil : Z) (x : tensor T) : tensor T :=
  let oh := conv_extent stride pad dil h kh in let ow := conv_extent stride pad dil w kw in
  tensor_of [ic * (kh * kw); n * (oh * ow)] (fn2 (fun r c =>
    fn3 (fun ch p q => fn3 (fun i y z => padded x h w i ch (y * stride + p * dil - pad) (z * stride + q * dil - pad)) (unravel [n; oh; ow] c)) (unravel [ic; kh; kw] r))).
End S.
