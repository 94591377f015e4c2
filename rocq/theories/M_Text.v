(** * Text forms of shapes and tensors

    [os << int] writes the decimal digits with a leading minus sign: [show_int].  How an element is written ([os << data_[i]])
    is a parameter [show], and so is [typeid(T).name()]. *)
From Coq Require Import ZArith Ascii String.
From Verif Require Import Base Types TextBase M_Shape.
Local Open Scope string_scope.

(** Shape.hpp:33-43 operator<< and 45-49 toString. *)
Definition shape_text (s : shape) : outcome string :=
  let n := Zlen (dims s) in
  t <- for_ 0 n (fun i os =>
         d <- rd (dims s) i ;;
         Ok (if negb (i =? u64 (n - 1))%Z then os ++ show_int d ++ ", " else os ++ show_int d)) "(" ;;
  Ok (t ++ ")").

Section S.
Context {T : Type}.
Variables (show : T -> string) (type_name : string).

(** The element loops of TensorDataCPU.impl.hpp:105-108 and 118-121. *)
Definition elems_text (t : tensor T) (hi : Z) (os : string) : outcome string :=
  for_ 0 hi (fun i os =>
    v <- rd (tdata t) i ;;
    Ok ((if (0 <? i)%Z then os ++ ", " else os) ++ show v)) os.
(** TensorDataCPU.impl.hpp:99-112 toString. *)
Definition data_detail (t : tensor T) : outcome string :=
  st <- shape_text (tshape t) ;;
  e <- elems_text t (Z.min (ssize (tshape t)) 10)
         ("TensorData<" ++ type_name ++ ", CPUDevice>:" ++ nl ++ "Shape: " ++ st ++ nl ++ "Data: [") ;;
  Ok ((if (10 <? ssize (tshape t))%Z then e ++ ", ..." else e) ++ "]").
(** TensorDataCPU.impl.hpp:114-124 toDataString; Tensor.impl.hpp:220-223. *)
Definition data_text (t : tensor T) : outcome string :=
  e <- elems_text t (ssize (tshape t)) "[" ;;
  Ok (e ++ "]").
(** Tensor.impl.hpp:212-218 toDetailedString. *)
Definition tensor_detail (t : tensor T) : outcome string :=
  d <- data_detail t ;;
  Ok ("Tensor:" ++ nl ++ d ++ nl).
End S.
