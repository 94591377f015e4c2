(** * How often dropout keeps an element (C123) *)
From Coq Require Import Reals Lra.
From Verif Require Import Base Scalar ScalarR Types Spec SpecR SpecNN SpecInit SpecChance M_Shape M_Tensor M_Adv M_Act M_Layers M_Reg L_Index L_Shape L_Tensor L_Nest L_Matmul L_RSum L_Drop L_Init L_AdvR.
Local Open Scope R_scope.

Section A.
Context {A : Type}.
Implicit Types om : list A.
Lemma len_pos : forall om, om <> [] -> 0 < IZR (Zlen om).
Proof. intros [|a om] H; [congruence|]. apply IZR_lt. unfold Zlen. cbn [length]. lia. Qed.
Lemma mean_le : forall om X Y, om <> [] -> (forall a, In a om -> X a <= Y a) -> mean om X <= mean om Y.
Proof. intros om X Y N H. unfold mean. apply Rmult_le_compat_r; [left; apply Rinv_0_lt_compat, len_pos; auto|apply rsum_le; auto]. Qed.
Lemma mean_ext : forall om X Y, (forall a, In a om -> X a = Y a) -> mean om X = mean om Y.
Proof. intros om X Y H. unfold mean. f_equal. apply rsum_ext. auto. Qed.
Lemma mean_scal : forall om X c, mean om (fun a => c * X a) = c * mean om X.
Proof. intros om X c. unfold mean. rewrite rsum_scal_l. unfold Rdiv. ring. Qed.
Lemma mean_plus : forall om X Y, mean om (fun a => X a + Y a) = mean om X + mean om Y.
Proof. intros om X Y. unfold mean. rewrite rsum_plus. unfold Rdiv. ring. Qed.
Lemma mean_const : forall om c, om <> [] -> mean om (fun _ => c) = c.
Proof. intros om c N. unfold mean. rewrite rsum_const. pose proof (len_pos om N). field. lra. Qed.
Lemma mean_sum : forall {B} (l : list B) om (X : A -> B -> R), mean om (fun a => rsum l (X a)) = rsum l (fun b => mean om (fun a => X a b)).
Proof.
  intros B l om X. induction l as [|b l IH]; [unfold mean, rsum; cbn; change (Rsum (map (fun _ : A => 0) om)) with (rsum om (fun _ : A => 0)); rewrite rsum_const; unfold Rdiv; ring|].
  rewrite rsum_cons, <- IH, <- mean_plus. apply mean_ext. intros a _. apply rsum_cons.
Qed.
Lemma share_half : forall om X t, om <> [] -> even_handed om X -> 0 <= t -> share om (fun a => Rltb t (X a)) <= / 2.
Proof.
  intros om X t N H Ht. assert (E : share om (fun a => Rltb t (X a)) + share om (fun a => Rltb (X a) (- t)) <= 1).
  { unfold share. rewrite <- mean_plus. eapply Rle_trans; [apply (mean_le om _ (fun _ => 1) N)|rewrite mean_const by auto; lra]. intros a _. unfold Rltb. destruct (Rlt_dec t (X a)); destruct (Rlt_dec (X a) (- t)); lra. }
  rewrite <- (H t) in E. lra.
Qed.
Lemma share_square : forall om X t, om <> [] -> 0 < t -> share om (fun a => Rltb t (X a)) <= mean om (fun a => X a * X a) / (t * t).
Proof.
  intros om X t N Ht. assert (P : 0 < t * t) by nra. apply (Rmult_le_reg_l (t * t)); [auto|]. replace (t * t * (mean om (fun a => X a * X a) / (t * t))) with (mean om (fun a => X a * X a)) by (field; lra).
  unfold share. rewrite <- mean_scal. apply mean_le; auto. intros a _. unfold Rltb. destruct (Rlt_dec t (X a)); nra.
Qed.
End A.

Section D.
Context {G : Type} {HR : Rng R G}.
Lemma clamp_above : forall r v, 0 <= r < 1 -> Rltb r (clamp 0 1 v) = Rltb r v.
Proof.
  intros r v H. unfold clamp. cbn [s_lt RScalar]. unfold Rltb. destruct (Rlt_dec v 0).
  - destruct (Rlt_dec 1 0); [lra|]. destruct (Rlt_dec r 0); destruct (Rlt_dec r v); auto; lra.
  - destruct (Rlt_dec 1 v); destruct (Rlt_dec r v); auto; try lra; destruct (Rlt_dec r 1); auto; lra.
Qed.
(** One element of the output, from its draw. *)
Lemma drop_el : forall (l : dropout R) x (g : G) y idx, dr_train l = true -> 0 <= dr_rate l < 1 -> good x -> snd (dropout_forward l x g) = Ok y -> in_range (tdims x) idx ->
  el y idx = if Rltb (dr_rate l) (normal_draw (prod (tdims x)) (ravel (tdims x) idx) g) then el x idx / (1 - dr_rate l) else 0.
Proof.
  intros l x g y idx Ht Hr Gx E HI. destruct (dropout_train l x g Ht Gx) as (r & g' & ER & _ & _ & EF). rewrite EF in E. cbn [snd] in E. match type of E with Ok ?u = Ok ?v => assert (Ey : v = u) by congruence end. subst y.
  rewrite rand_drawn in ER by (try apply good_pos; try apply good_max; auto). assert (Er : r = drawn (tdims x) zero one g) by congruence. subst r. rewrite el_tensor_of by auto. unfold drawn. rewrite el_tensor_of by auto.
  change (s_lt (dr_rate l) ?w) with (Rltb (dr_rate l) w). change (@zero R RScalar) with 0. change (@one R RScalar) with 1. rewrite clamp_above by auto.
  unfold normal_draw, deviation. cbn [s_sqrt s_div s_z s_mul s_sub RScalar]. destruct (Rltb _ _); cbn; field; lra.
Qed.
Lemma drop_dims : forall (l : dropout R) x (g : G), dr_train l = true -> good x -> exists y, snd (dropout_forward l x g) = Ok y /\ good y /\ tdims y = tdims x.
Proof.
  intros l x g Ht Gx. destruct (dropout_train l x g Ht Gx) as (r & g' & _ & _ & _ & EF). rewrite EF. eexists. split; [reflexivity|]. split; [apply good_tensor_of; [apply good_pos; auto|apply good_max; auto]|reflexivity].
Qed.

Variables (l : dropout R) (x : tensor R) (om : list G) (y : G -> tensor R).
Hypothesis Ht : dr_train l = true.
Hypothesis Gx : good x.
Hypothesis N : om <> [].
Hypothesis HY : forall g, In g om -> snd (dropout_forward l x g) = Ok (y g).
Local Notation X idx := (normal_draw (prod (tdims x)) (ravel (tdims x) idx)).
Lemma drop_mean : forall idx, 0 <= dr_rate l < 1 -> in_range (tdims x) idx ->
  mean om (fun g => el (y g) idx) = el x idx * (share om (fun g => Rltb (dr_rate l) (X idx g)) / (1 - dr_rate l)).
Proof.
  intros idx Hr HI. unfold share. replace (el x idx * (mean om (fun a => if Rltb (dr_rate l) (X idx a) then 1 else 0) / (1 - dr_rate l))) with (el x idx / (1 - dr_rate l) * mean om (fun a => if Rltb (dr_rate l) (X idx a) then 1 else 0)) by (field; lra).
  rewrite <- mean_scal. apply mean_ext. intros g Hg. rewrite (drop_el l x g (y g) idx) by auto. destruct (Rltb _ _); field; lra.
Qed.
Lemma drop_half : forall idx, 0 <= dr_rate l < 1 -> in_range (tdims x) idx -> even_handed om (X idx) ->
  share om (fun g => if Req_EM_T (el (y g) idx) 0 then false else true) <= / 2 /\ Rabs (mean om (fun g => el (y g) idx)) <= Rabs (el x idx) / (2 * (1 - dr_rate l)).
Proof.
  intros idx Hr HI HE. pose proof (share_half om (X idx) (dr_rate l) N HE ltac:(lra)) as HH. split.
  - eapply Rle_trans; [|exact HH]. apply mean_le; auto. intros g Hg. rewrite (drop_el l x g (y g) idx) by auto. destruct (Rltb _ _); destruct (Req_EM_T _ 0); cbn; try congruence; lra.
  - rewrite drop_mean by auto. set (p := share om (fun g => Rltb (dr_rate l) (X idx g))) in *. assert (0 <= p). { unfold p, share. apply Rle_trans with (mean om (fun _ => 0)); [right; symmetry; apply mean_const; auto|]. apply mean_le; auto. intros g _. destruct (Rltb _ _); lra. }
    assert (I : 0 < / (1 - dr_rate l)) by (apply Rinv_0_lt_compat; lra). rewrite Rabs_mult. rewrite (Rabs_pos_eq (p / (1 - dr_rate l))) by (apply Rmult_le_pos; lra). replace (Rabs (el x idx) / (2 * (1 - dr_rate l))) with (Rabs (el x idx) * (/ 2 / (1 - dr_rate l))) by (field; lra).
    apply Rmult_le_compat_l; [apply Rabs_pos|]. apply Rmult_le_compat_r; lra.
Qed.
Lemma drop_few : 0 < dr_rate l < 1 -> (forall idx, in_range (tdims x) idx -> mean om (fun g => X idx g * X idx g) = 2 / IZR (prod (tdims x))) ->
  mean om (fun g => nonzeros (y g)) <= 2 / (dr_rate l * dr_rate l).
Proof.
  intros Hr HS. pose proof (good_dims x Gx) as HF. pose proof (prod_pos _ HF) as HP. apply IZR_lt in HP.
  assert (ED : forall g, In g om -> tdims (y g) = tdims x). { intros g Hg. destruct (drop_dims l x g Ht Gx) as (z & Ez & _ & Dz). rewrite HY in Ez by auto. assert (y g = z) by congruence. subst z. exact Dz. }
  apply Rle_trans with (mean om (fun g => rsum (all_indices (tdims x)) (fun idx => if Rltb (dr_rate l) (X idx g) then 1 else 0))).
  - apply mean_le; auto. intros g Hg. unfold nonzeros. rewrite ED by auto. apply rsum_le. intros idx HI. apply In_all_indices in HI; auto. rewrite (drop_el l x g (y g) idx) by (auto; lra). destruct (Rltb _ _); destruct (Req_EM_T _ 0); cbn; try congruence; lra.
  - rewrite mean_sum. apply Rle_trans with (rsum (all_indices (tdims x)) (fun _ => 2 / IZR (prod (tdims x)) / (dr_rate l * dr_rate l))).
    + apply rsum_le. intros idx HI. apply In_all_indices in HI; auto. eapply Rle_trans; [apply (share_square om (X idx) (dr_rate l) N); lra|]. rewrite HS by auto. lra.
    + rewrite rsum_const. unfold all_indices. rewrite Zlen_ztab by (apply le_IZR; lra). right. field. lra.
Qed.
Lemma drop_exact : forall idx, 0 <= dr_rate l < 1 -> in_range (tdims x) idx -> share om (fun g => Rltb (dr_rate l) (X idx g)) = 1 - dr_rate l -> mean om (fun g => el (y g) idx) = el x idx.
Proof. intros idx Hr HI E. rewrite drop_mean by auto. rewrite E. field. lra. Qed.
End D.

(** An engine that draws plus or minus the deviation. *)
Definition coin_rng : Rng R bool := {| rng_seed := fun _ => true; rng_normal := fun sd g => (if g then sd else - sd, g); rng_uniform := fun lo _ g => (lo, g) |}.
Lemma coin_draw : forall n k g, normal_draw (HR := coin_rng) n k g = if g then sqrt (2 / IZR n) else - sqrt (2 / IZR n).
Proof.
  intros n k g. unfold normal_draw, draw. assert (E : forall j, engine_after (HR := coin_rng) (sqrt (2 / IZR n)) j g = g) by (induction j as [|j IH]; [reflexivity|cbn; exact IH]). rewrite E. reflexivity.
Qed.
Lemma coin_fair : forall n k, (0 < n)%Z -> even_handed [true; false] (normal_draw (HR := coin_rng) n k) /\ mean [true; false] (fun g => normal_draw (HR := coin_rng) n k g * normal_draw (HR := coin_rng) n k g) = 2 / IZR n.
Proof.
  intros n k Hn. apply IZR_lt in Hn. assert (H2 : 0 <= 2 / IZR n) by (apply Rmult_le_pos; [lra|left; apply Rinv_0_lt_compat; lra]). pose proof (sqrt_sqrt _ H2) as HS. split.
  - intros t. unfold share, mean, rsum. cbn [map Rsum fold_right]. rewrite !coin_draw. set (s := sqrt (2 / IZR n)). unfold Rltb. f_equal. destruct (Rlt_dec t s); destruct (Rlt_dec t (- s)); destruct (Rlt_dec s (- t)); destruct (Rlt_dec (- s) (- t)); cbn; lra.
  - unfold mean, rsum. cbn [map]. rewrite !coin_draw. set (s := sqrt (2 / IZR n)) in *. rewrite <- HS. change (IZR (Zlen [true; false])) with 2. cbn. field.
Qed.
Definition quarter : dropout R := mkDrop (/ 4) None true.
Definition ones9 : tensor R := tensor_of [9%Z] (fun _ => 1).
Lemma ones9_good : good ones9.
Proof. apply good_tensor_of; [split; [discriminate|repeat constructor; lia]|vm_compute; discriminate]. Qed.
Lemma coin_dropout : exists y : bool -> tensor R, (forall g, snd (dropout_forward (H := coin_rng) quarter ones9 g) = Ok (y g)) /\ forall idx, in_range [9%Z] idx -> mean [true; false] (fun g => el (y g) idx) = 2 / 3.
Proof.
  pose proof ones9_good as G9.
  destruct (drop_dims (HR := coin_rng) quarter ones9 true eq_refl G9) as (y1 & E1 & _). destruct (drop_dims (HR := coin_rng) quarter ones9 false eq_refl G9) as (y2 & E2 & _).
  exists (fun g : bool => if g then y1 else y2). split; [intros [|]; auto|]. intros idx HI. assert (E : forall g, In g [true; false] -> snd (dropout_forward (H := coin_rng) quarter ones9 g) = Ok (if g then y1 else y2)) by (intros [|] _; auto).
  rewrite (drop_mean (HR := coin_rng) quarter ones9 [true; false] (fun g : bool => if g then y1 else y2) eq_refl G9 E idx) by (auto; cbn; lra).
  unfold share, mean, rsum. cbn [map]. rewrite !coin_draw. change (prod (tdims ones9)) with 9%Z. cbn [dr_rate quarter].
  assert (HS : / 4 < sqrt (2 / 9)). { rewrite <- (sqrt_square (/ 4)) by lra. apply sqrt_lt_1; lra. }
  unfold Rltb. destruct (Rlt_dec (/ 4) (sqrt (2 / 9))); [|lra]. destruct (Rlt_dec (/ 4) (- sqrt (2 / 9))); [lra|]. change (IZR (Zlen [true; false])) with 2. unfold ones9. rewrite el_tensor_of by exact HI. cbn. field.
Qed.

Lemma coin_refutes : exists (HR : Rng R bool) (l : dropout R) (x : tensor R) (states : list bool) (y : bool -> tensor R), dr_train l = true /\ 0 <= dr_rate l < 1 /\ good x /\ states <> [] /\
  (forall k, even_handed states (normal_draw (prod (tdims x)) k) /\ mean states (fun g => normal_draw (prod (tdims x)) k g * normal_draw (prod (tdims x)) k g) = 2 / IZR (prod (tdims x))) /\
  (forall g, snd (dropout_forward l x g) = Ok (y g)) /\ forall idx, in_range (tdims x) idx -> mean states (fun g => el (y g) idx) <> el x idx.
Proof.
  destruct coin_dropout as (y & E & M). exists coin_rng, quarter, ones9, [true; false], y. split; [reflexivity|]. split; [cbn; lra|]. split; [exact ones9_good|]. split; [discriminate|]. split; [intros k; apply coin_fair; reflexivity|]. split; [exact E|].
  intros idx HI. rewrite M by exact HI. unfold ones9. rewrite el_tensor_of by exact HI. lra.
Qed.
