(** * The end of examples/MNistModel.cpp: showing predictions, and the whole program with what it prints

    The state is the network and the text written so far; how a float is written is the parameter [show]. *)
From Coq Require Import ZArith Ascii String Floats.SpecFloat.
From Verif Require Import Base Scalar Types TextBase M_Shape M_Tensor M_Adv M_Act M_Loss M_Layers M_Reg M_Opt M_Net M_Data M_Text M_Log M_Ex.
Local Open Scope Z_scope.
Local Open Scope string_scope.

Section Show.
Variable lm : libm.
Local Instance show_scalar : Scalar f32 := F32Scalar lm.
Context {G : Type} {HR : Rng f32 G}.
Variable show : f32 -> string.

(** MNistModel.cpp:72-78.  The operands of [<<] are evaluated from left to right (C++17), so each label is written before its
    text is computed. *)
Definition show_one (n : net f32 G) (x t : tensor f32) (os : string) : (net f32 G * string) * outcome unit :=
  let (n1, o) := net_predict n x in
  step (n1, os) o (fun p =>
  let os := os ++ "Input: " in
  step (n1, os) (to_ascii_art x) (fun a =>
  let os := os ++ string_of_list_ascii a ++ nl ++ "Prediction: " in
  step (n1, os) (data_text show p) (fun s =>
  let os := os ++ s ++ nl ++ "Actual value: " in
  step (n1, os) (data_text show t) (fun s => ((n1, os ++ s ++ nl), Ok tt))))).
(** Lines 71-79 from index [i] on.  The index is an [int] and test_input.size()-5 a size_t: the comparison converts the index. *)
Fixpoint show_from (fuel : nat) (n : net f32 G) (xs ts : list (tensor f32)) (i : Z) (os : string) : (net f32 G * string) * outcome unit :=
  if (u64 (Zlen xs - 5) <? u64 i)%Z then
    match fuel with
    | O => ((n, os), Hang)
    | Datatypes.S fuel =>
        step (n, os) (x <- rd xs i ;; t <- rd ts i ;; Ok (x, t)) (fun p =>
        let (x, t) := p in
        let '(q, o) := show_one n x t os in
        step q o (fun _ => step q (chk32 (i - 1)) (fun i' => show_from fuel (fst q) xs ts i' (snd q))))
    end
  else ((n, os), Ok tt).
(** Lines 71-79; [int i = test_input.size()-1] *)
Definition net_show (n : net f32 G) (xs ts : list (tensor f32)) (os : string) : (net f32 G * string) * outcome unit :=
  show_from (Datatypes.S (List.length xs)) n xs ts (i32 (Zlen xs - 1)) os.

(** The whole program, lines 18-83: the text written and the outcome.  The two files are read twice. *)
Definition mnist_main (images labels : option stream) (g : G) : string * outcome unit :=
  step "" (n <- mnist_net g ;; '(inputs, targets) <- load_data 8 1000 images labels ;; Ok (n, inputs, targets)) (fun p =>
  let '(n, inputs, targets) := p in
  let '((n1, os), o) := net_train_report show n inputs targets 10 in
  step os o (fun _ =>
  step os (load_data 8 (-1) images labels) (fun q =>
  let (tx, ty) := q in
  let '((_, os'), o') := net_show (net_set_mode n1 false) tx ty os in (os', o')))).
End Show.
