(** * Property C126: networks used by several threads

    [threads users] (SpecThreads.v): thread [i] makes its calls of train, predict and the mode switch on the network number [i].  Threads
    move in any order, one memory access at a time (M_Par.v, SpecPar.v). *)
From Verif Require Import Base Scalar Types Spec M_Shape M_Tensor M_Act M_Loss M_Layers M_Reg M_Opt M_Net M_Addr M_Par M_Threads SpecPar SpecThreads
  L_Tensor L_Par L_Threads P_Tensor P_Layers P_Net P_Addr.
Local Existing Instance counter_rng.

(** Any number of threads, each with its own network, of which at most one, thread [w], draws random numbers: under every schedule there is no data
    race, every thread finishes, and each network, each returned value and the engine of [w] are what the same calls give without the other threads. *)
Theorem C126_own_networks_partial : forall {T} {S : Scalar T} {G} {HR : Rng T G} (users : list (net T G * list (call T))) w m,
  (forall i n cs, nth_error users i = Some (n, cs) -> in_memory m (Z.of_nat i) n /\ if Nat.eqb i w then m engine 0 = CRng (n_rng n) else no_draws n cs) ->
  race_free (threads users) m /\ well_founded (fun c c' : mem (tcell T G) * list (prog (tcell T G)) => pstep c' c) /\ (exists m', final (threads users) m m') /\
  forall m', final (threads users) m m' -> forall i n cs, nth_error users i = Some (n, cs) ->
    in_memory m' (Z.of_nat i) (fst (run_calls net_train n cs)) /\ returned m' (Z.of_nat i) (snd (run_calls net_train n cs)) /\
    (i = w -> m' engine 0 = CRng (n_rng (fst (run_calls net_train n cs)))).
Proof. exact @threads_ok. Qed.
Print Assumptions C126_own_networks_partial.

(** Three networks; one is trained and then used, one changes its mode and fails on an input of the wrong shape, and one is trained with Dropout. *)
Definition users2 : list (net Z Z * list (call Z)) :=
  [(netA, [CTrain [oneZ 1] [oneZ 2] 2; CMode false; CPredict (oneZ 1)]); (net_add netA (LDrop (mkDrop 0 None false)), [CMode false; CPredict (oneZ 3); CPredict (ramp [7; 7])]);
   (net_add netA (LDrop (mkDrop 0 None true)), [CTrain [oneZ 1] [oneZ 2] 2; CPredict (oneZ 3)])].
Definition mem_of (users : list (net Z Z * list (call Z))) : mem (tcell Z Z) := fun a i =>
  if a <? 0 then CRng 0 else match nth_error users (Z.to_nat (a / 2)) with
  | Some (n, _) => if i =? -1 then COpt (n_opt n) else match nth_error (n_layers n) (Z.to_nat i) with Some l => CLayer l | None => CRng 0 end
  | None => CRng 0
  end.
Lemma mem_of_ok : forall users i n cs, nth_error users i = Some (n, cs) -> in_memory (mem_of users) (Z.of_nat i) n.
Proof.
  intros users i n cs E. unfold in_memory, mem_of. replace (2 * Z.of_nat i <? 0) with false by (symmetry; apply Z.ltb_ge; lia). replace (2 * Z.of_nat i / 2) with (Z.of_nat i) by (rewrite Z.mul_comm, Z.div_mul; lia). rewrite Nat2Z.id, E. split; [|reflexivity].
  intros j l El. replace (Z.of_nat j =? -1) with false by (symmetry; apply Z.eqb_neq; lia). rewrite Nat2Z.id, El. reflexivity.
Qed.
Example C126_own_case : (forall i n cs, nth_error users2 i = Some (n, cs) -> in_memory (mem_of users2) (Z.of_nat i) n /\ if Nat.eqb i 2 then mem_of users2 engine 0 = CRng (n_rng n) else no_draws n cs) /\
  snd (run_calls net_train (fst (nth 0 users2 (netA, []))) (snd (nth 0 users2 (netA, [])))) = [SDone (Ok tt); SDone (Ok tt); SValue (Ok (oneZ 24769))] /\
  n_rng (fst (run_calls net_train (fst (nth 2 users2 (netA, []))) (snd (nth 2 users2 (netA, []))))) = 3.
Proof.
  split; [|split; vm_compute; reflexivity]. intros i n cs E. split; [eapply mem_of_ok; eauto|]. destruct i as [|[|[|i]]]; [| | |destruct i; discriminate]; injection E as <- <-; cbn [Nat.eqb]; [| |reflexivity]; intros d Hd; cbn in Hd.
  - destruct Hd as [H|[H|[]]]; discriminate H.
  - destruct Hd as [H|[H|[H|[]]]]; try discriminate H. injection H as <-. split; [reflexivity|]. cbn. intros [H|[H|[H|[]]]]; discriminate H.
Qed.

(** Threads that predict with one network whose layers all only read do not race, and get what they would get alone. *)
Theorem C126_shared_reading_partial : forall {T} {S : Scalar T} {G} {HR : Rng T G} (n : net T G) uses m, in_memory m 0 n -> reads_only n ->
  race_free (sharing n uses) m /\ (exists m', final (sharing n uses) m m') /\
  forall m', final (sharing n uses) m m' -> in_memory m' 0 n /\
    forall i xs, nth_error uses i = Some xs -> fst (run_calls net_train n (map (@CPredict T) xs)) = n /\ returned m' (Z.of_nat i) (snd (run_calls net_train n (map (@CPredict T) xs))).
Proof. exact @sharing_ok. Qed.
Print Assumptions C126_shared_reading_partial.
Definition scaler : net Z Z := net_set_mode (mkNet [LBN (mkBN 1 1 0 (oneZ 3) (oneZ 4) (oneZ 0) (oneZ 1) None None None None None true); LDrop (dropout_new 0)] None None 0) false.
Example C126_shared_case : in_memory (mem_of [(scaler, [])]) 0 scaler /\ reads_only scaler /\
  snd (run_calls net_train scaler (map (@CPredict Z) [oneZ 2; ramp [3]])) = [SValue (Ok (oneZ 10)); SValue (Throw RuntimeError)].
Proof. split; [apply (mem_of_ok [(scaler, [])] 0 scaler []); reflexivity|]. split; [repeat constructor|]. vm_compute. reflexivity. Qed.

(** Two threads that predict with the same network, in any mode, write the same layer: its first layer keeps the input. *)
Theorem C126_same_network_races : forall {T} {S : Scalar T} {G} {HR : Rng T G} i (n : net T G) l r x y cs cs' m,
  n_layers n = l :: r -> keeps l x -> keeps l y -> in_memory m i n ->
  exists c, psteps (m, [thread_prog i n (CPredict x :: cs); thread_prog i n (CPredict y :: cs')]) c /\ both_write (snd c).
Proof. exact @same_net_writes. Qed.
Print Assumptions C126_same_network_races.
(** So predicting from two threads is a data race, even in evaluation mode. *)
Lemma same_network_case : exists (n : net Z Z) x m, n = net_set_mode netA false /\ in_memory m 0 n /\
  snd (net_predict n x) = Ok (oneZ 5) /\ ~ race_free [thread_prog 0 n [CPredict x]; thread_prog 0 n [CPredict x]] m.
Proof.
  exists (net_set_mode netA false), (oneZ 5), (mem_of [(net_set_mode netA false, [])]).
  pose proof (mem_of_ok [(net_set_mode netA false, [])] 0 _ _ eq_refl) as H. split; [reflexivity|]. split; [exact H|]. split; [vm_compute; reflexivity|].
  destruct (same_net_writes 0 (net_set_mode netA false) (LFC oneFC) [LFC oneFC] (oneZ 5) (oneZ 5) [] [] _ eq_refl I I H) as (c & P & B). exact (writes_race _ _ c P B).
Qed.
Theorem C126_same_network_refuted : exists (n : net Z Z) x m, n = net_set_mode netA false /\ in_memory m 0 n /\
  snd (net_predict n x) = Ok (oneZ 5) /\ ~ race_free [thread_prog 0 n [CPredict x]; thread_prog 0 n [CPredict x]] m.
Proof. exact same_network_case. Qed.
Print Assumptions C126_same_network_refuted.

(** Two threads with different networks race on the random engine, which all networks share, when both get to a Dropout layer in training mode. *)
Theorem C126_dropout_races : forall {T} {S : Scalar T} {G} {HR : Rng T G} i i' (n n' : net T G) x y cs cs' m g,
  i <> i' -> draws n x -> draws n' y -> in_memory m i n -> in_memory m i' n' -> m engine 0 = CRng g ->
  exists c, psteps (m, [thread_prog i n (CPredict x :: cs); thread_prog i' n' (CPredict y :: cs')]) c /\ both_write (snd c).
Proof. exact @dropout_race. Qed.
Print Assumptions C126_dropout_races.
Definition dropped : net Z Z := net_add netA (LDrop (dropout_new 0)).
Lemma dropout_case : exists (n : net Z Z) x m, n = dropped /\ in_memory m 0 n /\ in_memory m 1 n /\
  ~ race_free (threads [(n, [CPredict x]); (n, [CPredict x])]) m.
Proof.
  set (u := [(dropped, []); (dropped, [])] : list (net Z Z * list (call Z))).
  exists dropped, (oneZ 5), (mem_of u). pose proof (mem_of_ok u 0 dropped [] eq_refl) as H0. pose proof (mem_of_ok u 1 dropped [] eq_refl) as H1.
  split; [reflexivity|]. split; [exact H0|]. split; [exact H1|].
  assert (D : draws dropped (oneZ 5)).
  { exists [LFC oneFC; LFC oneFC], (dropout_new 0), []. do 3 eexists. split; [reflexivity|]. split; [reflexivity|]. split; [repeat constructor; discriminate|]. vm_compute. reflexivity. }
  destruct (dropout_race 0 1 dropped dropped (oneZ 5) (oneZ 5) [] [] (mem_of u) 0 ltac:(lia) D D H0 H1) as (c & P & B); [|exact (writes_race _ _ c P B)].
  reflexivity.
Qed.
Theorem C126_dropout_refuted : exists (n : net Z Z) x m, n = dropped /\ in_memory m 0 n /\ in_memory m 1 n /\
  ~ race_free (threads [(n, [CPredict x]); (n, [CPredict x])]) m.
Proof. exact dropout_case. Qed.
Print Assumptions C126_dropout_refuted.
