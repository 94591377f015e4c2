(** * Layers: fully connected *)
From Coq Require Import Reals Lra Permutation.
From Coquelicot Require Import Coquelicot.
From Verif Require Import Base Scalar ScalarR Types Spec M_Shape M_Tensor M_Adv M_Act M_Layers SpecR SpecNN
  L_Index L_Shape L_Bcast L_Tensor L_Reduce L_Tensor2 L_Glue L_Nest L_Matmul L_Axes L_Adv L_RSum L_AdvR L_Act L_ActR.
Local Open Scope Z_scope.

Section S.
Context {T : Type} {S : Scalar T}.

Lemma reshape_to_ok : forall (t : tensor T) ds, good t -> pos_dims ds -> prod ds = prod (tdims t) ->
  reshape_to t ds = Ok (tensor_of ds (fun idx => el t (unravel (tdims t) (ravel ds idx)))).
Proof.
  intros t ds Hg HP E. pose proof (good_max t Hg). unfold reshape_to. rewrite new_shape_ok_int by (auto; lia). cbn [bind dims shape_of].
  rewrite t_reshape_ok by auto. f_equal. apply reshaped_tensor_of; auto.
Qed.
Lemma as_row_1 : forall (t : tensor T) d, good t -> tdims t = [d] ->
  as_row t = Ok (tensor_of [1; d] (fn2 (fun _ j => el t [j]))).
Proof.
  intros t d Hg E. unfold as_row, rank. fold (tdims t). rewrite E. change (Zlen [d]) with 1. change (1 =? 1) with true.
  change (rd [d] 0) with (Ok d). cbn [bind]. destruct (dims1_pos t d Hg E). rewrite reshape_to_ok; auto with idx; [|rewrite E; simpl; lia].
  f_equal. apply tensor_of_ext; [apply pos_forall; auto with idx|]. intros idx HI. apply in_range_2 in HI. destruct HI as (i & j & -> & Hi & Hj).
  rewrite E. unfold fn2. cbn [nth]. f_equal. replace (ravel [1; d] [i; j]) with (ravel [d] [j]) by (rewrite ravel2, ravel1; nia).
  apply unravel_ravel. auto with idx.
Qed.
Lemma as_row_2 : forall (t : tensor T) n d, tdims t = [n; d] -> as_row t = Ok t.
Proof. intros t n d E. unfold as_row, rank. fold (tdims t). rewrite E. reflexivity. Qed.
Lemma row_back : forall (f : Z -> T) d, 0 < d <= INT_MAX ->
  reshape_to (tensor_of [1; d] (fn2 (fun _ j => f j))) [d] = Ok (tensor_of [d] (fn1 f)).
Proof.
  intros f d Hd. assert (G : good (tensor_of [1; d] (fn2 (fun _ j => f j)))) by (apply good_tensor_of; [auto with idx|simpl; lia]).
  rewrite reshape_to_ok; auto with idx; [|simpl; lia]. f_equal. apply tensor_of_ext; [apply pos_forall; auto with idx|]. intros idx HI. apply in_range_1 in HI.
  destruct HI as (j & -> & Hj). change (tdims _) with [1; d]. replace (ravel [d] [j]) with (ravel [1; d] [0; j]) by (rewrite ravel2, ravel1; nia).
  rewrite unravel_ravel by auto with idx. rewrite el_tensor_of by auto with idx. reflexivity.
Qed.
Lemma good_2 : forall m n (f : list Z -> T), 0 < m -> 0 < n -> m * n <= INT_MAX -> good (tensor_of [m; n] f).
Proof. intros. apply good_tensor_of; [auto with idx|simpl; lia]. Qed.

Lemma bcast_row : forall n o, 0 < n -> bcast [n; o] [1; o] [n; o].
Proof.
  intros n o Hn. split; [reflexivity|]. intros i Hi. cbn in Hi. destruct i as [|[|i]]; [| |lia]; cbn; unfold compatible; lia.
Qed.
Lemma add_row : forall (y b : tensor T) n o, good y -> good b -> tdims y = [n; o] -> tdims b = [1; o] ->
  t_add y b = Ok (tensor_of [n; o] (fn2 (fun i j => s_add (el y [i; j]) (el b [0; j])))).
Proof.
  intros y b n o Hy Hb Ey Eb. destruct (dims2_pos y n o Hy Ey) as (Hn & Ho & HM). unfold t_add. rewrite (t_binop_ok s_add y b [n; o]); auto.
  - f_equal. apply tensor_of_ext; [apply pos_forall; auto with idx|]. intros idx HI. apply in_range_2 in HI. destruct HI as (i & j & -> & Hi & Hj).
    unfold bel, fn2. cbn [nth]. rewrite Ey, Eb. rewrite bproj_id by auto with idx. f_equal.
    f_equal. cbv [bproj length Nat.sub skipn combine map fst snd]. destruct (Z.eqb_spec o 1); [|reflexivity]. repeat f_equal. lia.
  - rewrite Ey, Eb. apply bcast_row; auto.
  - simpl. lia.
Qed.

(** One entry of xW + b, for a row given as a function. *)
Definition affine (k : Z) (W b : tensor T) (r : Z -> T) (j : Z) : T :=
  s_add (sum_to k (fun p => s_mul (r p) (el W [p; j]))) (el b [0; j]).
Definition fc_wf (l : fc T) (k o : Z) : Prop :=
  good (fc_w l) /\ tdims (fc_w l) = [k; o] /\ good (fc_b l) /\ tdims (fc_b l) = [1; o].

Lemma fc_forward_2 : forall l k o (x : tensor T) n, fc_wf l k o -> good x -> tdims x = [n; k] -> n * o <= INT_MAX ->
  fc_forward l x = (mkFC (fc_w l) (fc_b l) (Some x) (fc_gw l) (fc_gb l),
    Ok (tensor_of [n; o] (fn2 (fun i j => affine k (fc_w l) (fc_b l) (fun p => el x [i; p]) j)))).
Proof.
  intros l k o x n (GW & EW & GB & EB) Gx Ex HM. unfold fc_forward. f_equal. rewrite (as_row_2 x n k) by auto. cbn [bind].
  destruct (dims2_pos x n k Gx Ex) as (Hn & Hk & _). destruct (dims2_pos _ k o GW EW) as (_ & Ho & _).
  rewrite (matmul_22 x (fc_w l) n k o) by auto. cbn [bind].
  rewrite (add_row _ (fc_b l) n o); auto; [|apply good_2; auto]. cbn [bind].
  unfold rank. fold (tdims x). rewrite Ex. change (Zlen [n; k] =? 1) with false. cbv iota. f_equal.
  apply tensor_of_ext; [apply pos_forall; auto with idx|]. intros idx HI. apply in_range_2 in HI. destruct HI as (i & j & -> & Hi & Hj).
  unfold fn2. cbn [nth]. rewrite el_tensor_of by auto with idx. reflexivity.
Qed.
Lemma fc_forward_1 : forall l k o (x : tensor T), fc_wf l k o -> good x -> tdims x = [k] ->
  fc_forward l x = (mkFC (fc_w l) (fc_b l) (Some x) (fc_gw l) (fc_gb l),
    Ok (tensor_of [o] (fn1 (fun j => affine k (fc_w l) (fc_b l) (fun p => el x [p]) j)))).
Proof.
  intros l k o x (GW & EW & GB & EB) Gx Ex. unfold fc_forward. f_equal. rewrite (as_row_1 x k) by auto. cbn [bind].
  destruct (dims1_pos x k Gx Ex) as (Hk & HMk). destruct (dims2_pos _ k o GW EW) as (_ & Ho & HMW).
  assert (o <= INT_MAX) by nia. assert (Gr : good (tensor_of [1; k] (fn2 (fun _ j => el x [j])))) by (apply good_2; lia).
  rewrite (matmul_22 _ (fc_w l) 1 k o) by (auto; lia). cbn [bind].
  rewrite (add_row _ (fc_b l) 1 o); auto; [|apply good_2; lia]. cbn [bind].
  unfold rank. fold (tdims x). rewrite Ex. change (Zlen [k] =? 1) with true. cbv iota.
  change (tdims (tensor_of [1; o] _)) with [1; o]. change (rd [1; o] 1) with (Ok o). cbn [bind].
  rewrite <- (row_back (fun j => affine k (fc_w l) (fc_b l) (fun p => el x [p]) j)) by lia. f_equal.
  apply tensor_of_ext; [apply pos_forall; auto with idx|]. intros idx HI. apply in_range_2 in HI. destruct HI as (i & j & -> & Hi & Hj).
  unfold fn2. cbn [nth]. rewrite el_tensor_of by auto with idx. cbn [nth]. unfold affine, sum_to. f_equal. f_equal. apply map_ext_in. intros p HI. apply In_zrange in HI.
  rewrite el_tensor_of by auto with idx. reflexivity.
Qed.
Lemma fc_forward_bad : forall l k o (x : tensor T), fc_wf l k o -> good x -> last (tdims x) 0 <> k \/ (3 < length (tdims x))%nat ->
  snd (fc_forward l x) = Throw InvalidArgument.
Proof.
  intros l k o x (GW & EW & GB & EB) Gx HL. unfold fc_forward. cbn [snd].
  pose proof (good_pos x Gx) as [HN _].
  assert (X : forall x2, as_row x = Ok x2 -> good x2 -> match inner_dims (tdims x2) (tdims (fc_w l)) with Some (n, m) => n <> m | None => True end ->
    (x0 <- as_row x;; y <- t_matmul x0 (fc_w l);; y0 <- t_add y (fc_b l);;
     (if rank (tshape x) =? 1 then d <- rd (tdims y0) 1;; reshape_to y0 [d] else Ok y0)) = Throw InvalidArgument).
  { intros x2 E2 G2 HI. rewrite E2. cbn [bind]. rewrite matmul_rejects by auto. reflexivity. }
  destruct (tdims x) as [|a [|b [|c [|d r]]]] eqn:Ex; [congruence| | | |].
  - destruct (dims1_pos x a Gx Ex). apply (X _ (as_row_1 x a Gx Ex)); [apply good_2; lia|]. rewrite EW. cbn in *. destruct HL; lia.
  - apply (X _ (as_row_2 x a b Ex)); auto. rewrite EW, Ex. cbn in *. destruct HL; lia.
  - apply (X x); auto; [unfold as_row, rank; fold (tdims x); rewrite Ex; reflexivity|]. rewrite EW, Ex. cbn in *. destruct HL; lia.
  - apply (X x); auto.
    + unfold as_row, rank; fold (tdims x); rewrite Ex. destruct (Z.eqb_spec (Zlen (a :: b :: c :: d :: r)) 1) as [E|]; auto.
      unfold Zlen in E. cbn [length] in E. lia.
    + rewrite EW, Ex. cbn. auto.
Qed.

Lemma swap2 : forall (a b : Z), swap_at (Z.to_nat 0) (Z.to_nat 1) [a; b] = [b; a]. Proof. reflexivity. Qed.
Lemma transpose_2 : forall (t : tensor T) m n, good t -> tdims t = [m; n] ->
  t_transpose t 0 1 = Ok (tensor_of [n; m] (fn2 (fun i j => el t [j; i]))).
Proof.
  intros t m n Hg E. destruct (dims2_pos t m n Hg E) as (Hm & Hn & _). rewrite transpose_ok by (auto; rewrite E; change (Zlen [m; n]) with 2; lia).
  rewrite E. rewrite (swap2 m n). reflexivity.
Qed.

(** What backward computes for x and g with one row per sample. *)
Definition fc_dx (o : Z) (W : tensor T) (g : Z -> Z -> T) (i p : Z) : T := sum_to o (fun j => s_mul (g i j) (el W [p; j])).
Definition fc_dw (n : Z) (x g : Z -> Z -> T) (p j : Z) : T := sum_to n (fun i => s_mul (x i p) (g i j)).
Definition fc_db (n : Z) (g : Z -> Z -> T) (j : Z) : T := sum_to n (fun i => g i j).

Lemma fc_backward_rows : forall l k o n (x0 g0 x g : tensor T), fc_wf l k o -> fc_in l = Some x0 ->
  as_row x0 = Ok x -> as_row g0 = Ok g -> good x -> tdims x = [n; k] -> good g -> tdims g = [n; o] ->
  fc_backward l g0 =
   (mkFC (fc_w l) (fc_b l) (fc_in l)
     (Some (tensor_of [k; o] (fn2 (fc_dw n (fun i p => el x [i; p]) (fun i j => el g [i; j])))))
     (Some (tensor_of [1; o] (fn2 (fun _ => fc_db n (fun i j => el g [i; j]))))),
    Ok (tensor_of [n; k] (fn2 (fc_dx o (fc_w l) (fun i j => el g [i; j]))))).
Proof.
  intros l k o n x0 g0 x g (GW & EW & GB & EB) EI Rx Rg Gx Ex Gg Eg. unfold fc_backward. rewrite EI, Rx. cbn [bind]. rewrite Rg. cbn [bind].
  destruct (dims2_pos x n k Gx Ex) as (Hn & Hk & HM1). destruct (dims2_pos _ k o GW EW) as (_ & Ho & HM2). destruct (dims2_pos g n o Gg Eg) as (_ & _ & HM3).
  rewrite (transpose_2 x n k) by auto. cbn [bind]. rewrite (matmul_22 _ g k n o); auto; [|apply good_2; lia]. cbn [bind step].
  rewrite t_sum_axis_ok; auto; [|rewrite Eg; simpl; lia|rewrite Eg; change (Zlen [n; o]) with 2; lia]. cbn [bind]. rewrite EB, Eg.
  change (rd [1; o] 1) with (Ok o). cbn [bind]. change (remove_at (Z.to_nat 0) [n; o]) with [o]. change (nth (Z.to_nat 0) [n; o] 0) with n.
  assert (G1 : forall f : list Z -> T, good (tensor_of [o] f)) by (intros; apply good_tensor_of; [auto with idx|simpl; nia]).
  rewrite (reshape_to_ok _ [1; o]); [|auto|auto with idx|simpl; lia]. cbn [step]. rewrite (transpose_2 (fc_w l) k o) by auto. cbn [bind].
  rewrite (matmul_22 g _ n o k); auto; [|apply good_2; lia].
  f_equal; [f_equal; [f_equal|f_equal]|f_equal].
  - apply tensor_of_ext; [apply pos_forall; auto with idx|]. intros idx HI. apply in_range_2 in HI. destruct HI as (i & j & -> & Hi & Hj).
    unfold fn2, fc_dw, sum_to. cbn [nth]. f_equal. apply map_ext_in. intros p HI. apply In_zrange in HI. rewrite el_tensor_of by auto with idx. reflexivity.
  - apply tensor_of_ext; [apply pos_forall; auto with idx|]. intros idx HI. apply in_range_2 in HI. destruct HI as (i & j & -> & Hi & Hj).
    change (tdims (tensor_of [o] _)) with [o]. replace (ravel [1; o] [i; j]) with (ravel [o] [j]) by (rewrite ravel2, ravel1; nia).
    rewrite unravel_ravel by auto with idx. rewrite el_tensor_of by auto with idx. reflexivity.
  - apply tensor_of_ext; [apply pos_forall; auto with idx|]. intros idx HI. apply in_range_2 in HI. destruct HI as (i & j & -> & Hi & Hj).
    unfold fn2, fc_dx, sum_to. cbn [nth]. f_equal. apply map_ext_in. intros p HI. apply In_zrange in HI. rewrite el_tensor_of by auto with idx. reflexivity.
Qed.

Lemma rand_good : forall {G} {HR : Rng T G} ds g, pos_dims ds -> prod ds <= INT_MAX ->
  exists t g', f_rand ds g = Ok (t, g') /\ good t /\ tdims t = ds.
Proof.
  intros G HR ds g HP HM. unfold f_rand, f_random. rewrite new_shape_ok_int by auto. cbn [bind].
  assert (HPP : 0 < prod ds) by (apply prod_pos, pos_forall; auto). cbn [ssize shape_of].
  match goal with |- context[for_ 0 _ ?bd ?s0] => destruct (for_inv (fun k st => Zlen (fst st) = prod ds) 0 (prod ds) bd s0) as ([out g'] & E & H1) end.
  - lia.
  - cbn [fst]. unfold t_new; cbn [tdata]. rewrite Zlen_zrepeat; simpl; lia.
  - intros i [out g0] Hi A1. cbn [fst] in *. destruct (he_rand_range _ _ _ g0) as [v g1] eqn:EV.
    rewrite wr_ok by lia. cbn [bind]. eexists; split; [reflexivity|]. cbn [fst]. rewrite Zlen_upd. auto.
  - rewrite E. cbn [bind fst snd] in *. eexists; eexists; split; [reflexivity|]. split; [apply good_mk; auto|reflexivity].
Qed.
Lemma fc_new_ok : forall {G} {HR : Rng T G} k o (g : G), 0 < k -> 0 < o -> k * o <= INT_MAX ->
  exists l g', fc_new k o g = Ok (l, g') /\ fc_wf l k o /\ fc_in l = None.
Proof.
  intros G HR k o g Hk Ho HM. destruct (rand_good [k; o] g) as (w & g' & E & Gw & Ew); [auto with idx|simpl; lia|].
  unfold fc_new. rewrite E. cbn [bind]. destruct (fills [1; o] (zero : T)) as (_ & _ & E0); [auto with idx|simpl; nia|]. rewrite E0. cbn [bind].
  eexists; eexists; split; [reflexivity|]. split; [|reflexivity]. split; [auto|]. split; [auto|]. split; [apply good_2; lia || nia|reflexivity].
Qed.
End S.

