(** * What train writes to std::cout (SmartDNN.impl.hpp:30-49)

    The state is the network and the text written so far; how an element is written ([os << data_[i]]) is the parameter [show]. *)
From Coq Require Import ZArith Ascii String.
From Verif Require Import Base Scalar Types TextBase M_Shape M_Tensor M_Adv M_Act M_Loss M_Layers M_Reg M_Opt M_Net M_Text.
Local Open Scope string_scope.

Section Log.
Context {T : Type} {S : Scalar T} {G : Type} {HR : Rng T G}.
Variable show : T -> string.

(** Lines 31-48.  The operands of [<<] are evaluated from left to right (C++17), so the beginning of the line is written before
    the average is computed. *)
Definition report_epoch (n : net T G) (xs ts : list (tensor T)) (epoch : Z) (os : string) : (net T G * string) * outcome unit :=
  step (n, os) (s <- new_shape [1%Z] ;; Ok (t_fill s zero)) (fun total =>
  let '(n1, o) := train_samples n xs ts 0 total in
  step (n1, os) o (fun total =>
  let os := os ++ "Epoch " ++ show_int epoch ++ " - Loss: " in
  step (n1, os) (m <- t_div_s total (s_z (Zlen xs)) ;; data_text show m) (fun text => ((n1, os ++ text ++ nl), Ok tt)))).
(** Lines 30-49 *)
Fixpoint report_epochs (n : net T G) (xs ts : list (tensor T)) (epoch : Z) (k : nat) (os : string) : (net T G * string) * outcome unit :=
  match k with
  | O => ((n, os), Ok tt)
  | Datatypes.S k => let '(p, o) := report_epoch n xs ts epoch os in step p o (fun _ => report_epochs (fst p) xs ts (epoch + 1)%Z k (snd p))
  end.
Definition net_train_report (n : net T G) (xs ts : list (tensor T)) (epochs : Z) : (net T G * string) * outcome unit :=
  report_epochs n xs ts 0 (Z.to_nat epochs) "".
End Log.
