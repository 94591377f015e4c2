(** * Programs with several threads, each using a network

    The memory is that of M_Par.v.  A cell holds a layer object, an optimizer, the random engine (the only mutable static object of the
    library, RandomEngine.hpp:8-11) or what a thread was returned by a call.  The network [a] has its layers in the cells 0, 1, ... of the
    array [2a] and its optimizer in the cell -1; the returned values go to the array [2a+1].  The loss objects have no state.

    Simplification: an object is one cell, read as a whole before it is used and written as a whole after.  The objects are written
    when the C++ code writes one of their members; a call that fails halfway may write less. *)
From Verif Require Import Base Scalar Types M_Shape M_Tensor M_Adv M_Act M_Loss M_Layers M_Reg M_Opt M_Net M_Addr M_Par.

Section Threads.
Context {T : Type} {S : Scalar T} {G : Type} {HR : Rng T G}.

Inductive tcell := CLayer (l : layer T) | COpt (o : option (optim T)) | CRng (g : G) | CSeen (s : seen T).
Local Notation tprog := (prog tcell).
(** Where the engine is. *)
Definition engine : Z := -1.

(** Go on with [f] after success, and with [k] after a failure. *)
Definition andthen {A B} (o : outcome A) (k : outcome B -> tprog) (f : A -> tprog) : tprog :=
  match o with Ok x => f x | Throw e => k (Throw e) | Abort => k Abort | UB => k UB | Hang => k Hang end.

Section OnNet.
(** The array of the network, and its loss. *)
Variables (a : Z) (loss : option loss).

(** Does forward write a member?  FullyConnectedLayer.hpp:33, ActivationLayer.hpp:20, FlattenLayer.hpp:26-34, Conv2DLayer.hpp:36-40 and
    MaxPooling2DLayer.hpp:20-24 store the input, some after a check of its rank; DropoutLayer.hpp:16-19 and
    BatchNormalizationLayer.hpp:22-45 write only in training mode. *)
Definition stores (l : layer T) (x : tensor T) : bool :=
  match l with
  | LFC _ | LAct _ => true
  | LFlat _ => 2 <? rank (tshape x)
  | LConv l => (rank (tshape x) =? 4) && (match rd (tdims x) 1 with Ok c => c =? cv_ic l | _ => false end)
  | LPool _ => rank (tshape x) =? 4
  | LDrop l => dr_train l
  | LBN l => bn_train l && ((rank (tshape x) =? 2) || (rank (tshape x) =? 4))
  end.
(** forward of a layer that draws no random numbers. *)
Definition forward_local (l : layer T) (x : tensor T) : layer T * outcome (tensor T) :=
  match l with
  | LFC l => let r := fc_forward l x in (LFC (fst r), snd r)
  | LAct l => let r := act_forward l x in (LAct (fst r), snd r)
  | LFlat l => let r := flatten_forward l x in (LFlat (fst r), snd r)
  | LConv l => let r := conv_forward l x in (LConv (fst r), snd r)
  | LPool l => let r := pool_forward l x in (LPool (fst r), snd r)
  | LDrop l => (LDrop l, Ok x)
  | LBN l => let r := bn_forward l x in (LBN (fst r), snd r)
  end.
(** forward of the layer object [i], which was read as [l].  Only Dropout in training mode uses the engine (DropoutLayer.hpp:17). *)
Definition forward_one (i : Z) (l : layer T) (x : tensor T) (k : outcome (tensor T) -> tprog) : tprog :=
  let here := let r := forward_local l x in if stores l x then Wr a i (CLayer (fst r)) (k (snd r)) else k (snd r) in
  match l with
  | LDrop l =>
      if dr_train l then
        Rd engine 0 (fun c => match c with
                              | CRng g => let '(l', g', o) := dropout_forward l x g in
                                          Wr engine 0 (CRng g') (Wr a i (CLayer (LDrop l')) (k o))
                              | _ => Done
                              end)
      else here
  | _ => here
  end.
(** SmartDNN.impl.hpp:37-39 and 54-56, for the [n] layers from [i] on. *)
Fixpoint forward_prog (i : Z) (n : nat) (x : tensor T) (k : outcome (tensor T) -> tprog) : tprog :=
  match n with
  | O => k (Ok x)
  | Datatypes.S n => Rd a i (fun c => match c with
                                      | CLayer l => forward_one i l x (fun o => andthen o k (fun y => forward_prog (i + 1) n y k))
                                      | _ => Done
                                      end)
  end.
(** Lines 10-15, for the first [n] layers.  Only the layers with parameters store something. *)
Fixpoint backward_prog (n : nat) (d : tensor T) (k : outcome (tensor T) -> tprog) : tprog :=
  match n with
  | O => k (Ok d)
  | Datatypes.S n => Rd a (Z.of_nat n) (fun c => match c with
      | CLayer l => let '(l', o) := layer_backward l d in
                    let next := andthen o k (fun d => backward_prog n d k) in
                    match l with LFC _ | LConv _ | LBN _ => Wr a (Z.of_nat n) (CLayer l') next | _ => next end
      | _ => Done
      end)
  end.
(** Lines 18-22, for the [n] layers from [i] on. *)
Fixpoint update_prog (i : Z) (n : nat) (k : outcome unit -> tprog) : tprog :=
  match n with
  | O => k (Ok tt)
  | Datatypes.S n => Rd a i (fun c => match c with
      | CLayer l => match l with
                    | LFC _ | LConv _ | LBN _ => Rd a (-1) (fun c => match c with
                        | COpt (Some o) => let '(l', o', r) := layer_update i l o in
                                           Wr a (-1) (COpt (Some o')) (Wr a i (CLayer l') (andthen r k (fun _ => update_prog (i + 1) n k)))
                        | _ => Done
                        end)
                    | _ => update_prog (i + 1) n k
                    end
      | _ => Done
      end)
  end.
(** Lines 71-85 *)
Fixpoint mode_prog (md : bool) (i : Z) (n : nat) (k : tprog) : tprog :=
  match n with
  | O => k
  | Datatypes.S n => Rd a i (fun c => match c with CLayer l => Wr a i (CLayer (layer_set_mode md l)) (mode_prog md (i + 1) n k) | _ => Done end)
  end.
(** [n]: the number of layers. *)
Variable n : nat.
(** The pointer to the optimizer is read before the first layer is updated; a null pointer is undefined. *)
Definition updates_prog (k : outcome unit -> tprog) : tprog :=
  match n with
  | O => k (Ok tt)
  | _ => Rd a (-1) (fun c => match c with COpt (Some _) => update_prog 0 n k | COpt None => k UB | _ => Done end)
  end.
(** Lines 36-46 *)
Definition sample_prog (x : tensor T) (t : outcome (tensor T)) (total : tensor T) (k : outcome (tensor T) -> tprog) : tprog :=
  forward_prog 0 n x (fun o => andthen o k (fun p =>
  match loss with
  | None => k UB
  | Some l =>
      andthen (t <- t ;;
               c <- loss_compute l p t ;;
               total <- (let '(total', r) := t_binop_ip s_add false total c in _ <- r ;; Ok total') ;;
               d <- loss_gradient l p t ;; Ok (total, d)) k (fun q =>
      backward_prog n (snd q) (fun o => andthen o k (fun _ => updates_prog (fun r => andthen r k (fun _ => k (Ok (fst q)))))))
  end)).
(** Lines 35-46 *)
Fixpoint samples_prog (xs ts : list (tensor T)) (i : Z) (total : tensor T) (k : outcome (tensor T) -> tprog) : tprog :=
  match xs with
  | [] => k (Ok total)
  | x :: r => sample_prog x (rd ts i) total (fun o => andthen o k (fun total => samples_prog r ts (i + 1) total k))
  end.
(** Lines 31-47.  Writing to std::cout does not race. *)
Definition epoch_prog (xs ts : list (tensor T)) (k : outcome unit -> tprog) : tprog :=
  andthen (s <- new_shape [1] ;; Ok (t_fill s zero)) k (fun total =>
  samples_prog xs ts 0 total (fun o => andthen o k (fun total =>
  andthen (t_div_s total (s_z (Zlen xs))) k (fun _ => k (Ok tt))))).
(** Lines 30-49 *)
Fixpoint epochs_prog (xs ts : list (tensor T)) (e : nat) (k : outcome unit -> tprog) : tprog :=
  match e with
  | O => k (Ok tt)
  | Datatypes.S e => epoch_prog xs ts (fun o => andthen o k (fun _ => epochs_prog xs ts e k))
  end.
(** One call, and a list of calls from number [j] on; a thread goes on after an exception. *)
Definition call_prog (c : call T) (k : seen T -> tprog) : tprog :=
  match c with
  | CTrain xs ts e => epochs_prog xs ts (Z.to_nat e) (fun r => k (SDone r))
  | CPredict x => forward_prog 0 n x (fun r => k (SValue r))
  | CMode md => mode_prog md 0 n (k (SDone (Ok tt)))
  end.
Fixpoint calls_prog (b : Z) (cs : list (call T)) (j : Z) : tprog :=
  match cs with
  | [] => Done
  | c :: r => call_prog c (fun s => Wr b j (CSeen s) (calls_prog b r (j + 1)))
  end.
End OnNet.
(** The thread that makes the calls [cs] on the network [nt], whose number is [i]. *)
Definition thread_prog (i : Z) (nt : net T G) (cs : list (call T)) : tprog := calls_prog (2 * i) (n_loss nt) (List.length (n_layers nt)) (2 * i + 1) cs 0.
End Threads.
Arguments tcell : clear implicits.
