(** * Activations, for any arithmetic *)
From Verif Require Import Base Scalar Types Spec SpecNN M_Shape M_Tensor M_Adv M_Act L_Index L_Shape L_Bcast L_Tensor L_Reduce L_Tensor2 L_Glue L_Nest L_Matmul L_Adv.

Lemma for_pure : forall {X} lo hi (body : Z -> X -> outcome X) (f : X -> Z -> X) s,
  (forall i s, lo <= i < hi -> body i s = Ok (f s i)) -> for_ lo hi body s = Ok (fold_left f (zrange lo hi) s).
Proof.
  intros X lo hi body f s H. unfold for_. 
  assert (HI : forall i, In i (zrange lo hi) -> lo <= i < hi) by (intros i; apply In_zrange).
  revert s. induction (zrange lo hi) as [|i l IH]; intros s; simpl; auto.
  rewrite H by (apply HI; left; auto). cbn [bind]. apply IH. intros; apply HI; right; auto.
Qed.

Section S.
Context {T : Type} {S : Scalar T}.

(** Write [v i] at [off + i] for i < n. *)
Lemma for_block : forall n off (v : Z -> T) body (l0 : list T),
  0 <= n -> 0 <= off -> off + n <= Zlen l0 ->
  (forall i l, 0 <= i < n -> Zlen l = Zlen l0 -> (forall k, 0 <= k -> ~ (off <= k < off + i) -> znth zero l k = znth zero l0 k) ->
     body i l = Ok (upd l (Z.to_nat (off + i)) (v i))) ->
  exists l, for_ 0 n body l0 = Ok l /\ Zlen l = Zlen l0 /\
    forall k, 0 <= k -> znth zero l k = if (off <=? k) && (k <? off + n) then v (k - off) else znth zero l0 k.
Proof.
  intros n off v body l0 Hn Ho HL Hb.
  destruct (for_inv (fun i l => Zlen l = Zlen l0 /\
     forall k, 0 <= k -> znth zero l k = if (off <=? k) && (k <? off + i) then v (k - off) else znth zero l0 k) 0 n body l0) as (l & E & HZ & HV).
  - auto.
  - split; auto. intros k Hk. destruct (Z.leb_spec off k), (Z.ltb_spec k (off + 0)); try lia; reflexivity.
  - intros i l Hi [HZ HV]. eexists. split.
    + apply Hb; auto. intros k Hk Hk'. rewrite HV by auto. destruct (Z.leb_spec off k), (Z.ltb_spec k (off + i)); try lia; reflexivity.
    + split; [rewrite Zlen_upd; auto|]. intros k Hk. destruct (Z.eq_dec k (off + i)) as [->|NE].
      * rewrite znth_upd_eq by lia. destruct (Z.leb_spec off (off + i)), (Z.ltb_spec (off + i) (off + (i + 1))); try lia. cbn [andb]. f_equal. lia.
      * rewrite znth_upd_neq by lia. rewrite HV by auto.
        destruct (Z.leb_spec off k), (Z.ltb_spec k (off + i)), (Z.ltb_spec k (off + (i + 1))); try lia; reflexivity.
  - exists l. auto.
Qed.

(** ** Softmax *)
Definition frow (l : list T) (off n : Z) : list T := map (fun i => znth zero l (off + i)) (zrange 0 n).
Lemma max_element_ok : forall l off n, 1 <= n -> 0 <= off -> off + n <= Zlen l -> max_element l off n = Ok (list_max (frow l off n)).
Proof.
  intros l off n Hn Ho HL. unfold max_element. rewrite (rd_ok zero) by lia. cbn [bind].
  rewrite (for_pure 1 n _ (fun m i => s_max m (znth zero l (off + i)))).
  - f_equal. unfold frow. rewrite (zrange_cons 0) by lia. cbn [map list_max]. rewrite Z.add_0_r.
    generalize (znth zero l off). change (0 + 1) with 1. induction (zrange 1 n); intros x; simpl; auto.
  - intros i m Hi. rewrite (rd_ok zero) by lia. reflexivity.
Qed.
Lemma frow_row : forall (t : tensor T) b ds r, good t -> tdims t = b :: ds -> 0 <= r < b ->
  frow (tdata t) (r * prod ds) (prod ds) = row ds t r.
Proof.
  intros t b ds r Hg E Hr. pose proof (good_dims t Hg) as HF. rewrite E in HF. inversion HF as [|? ? Hb HF']; subst.
  unfold frow, row, all_indices, ztab. rewrite map_map. apply map_ext_in. intros i HI. apply In_zrange in HI.
  unfold el. rewrite E. cbn [ravel]. rewrite ravel_unravel by auto. reflexivity.
Qed.

Lemma softmax_row_body : forall (x : list T) out off fs, 1 <= fs -> 0 <= off -> off + fs <= Zlen x -> Zlen out = Zlen x ->
  exists out', (mx <- max_element x off fs ;;
    ' (out, sum) <- for_ 0 fs (fun i (st : list T * T) => let (out, sum) := st in
        v <- rd x (off + i) ;;
        out' <- wr out (off + i) (s_exp (s_sub v mx)) ;;
        o <- rd out' (off + i) ;;
        Ok (out', s_add sum o)) (out, zero) ;;
    for_ 0 fs (fun i out => o <- rd out (off + i) ;; wr out (off + i) (s_div o sum)) out) = Ok out' /\
    Zlen out' = Zlen x /\
    forall k, 0 <= k -> znth zero out' k = if (off <=? k) && (k <? off + fs) then softmax_of (frow x off fs) (znth zero x k) else znth zero out k.
Proof.
  intros x out off fs Hf Ho HL HO. rewrite max_element_ok by auto. cbn [bind]. set (M := list_max (frow x off fs)).
  match goal with |- context [for_ 0 fs ?body (out, zero)] =>
  destruct (for_inv (fun i (st : list T * T) => Zlen (fst st) = Zlen x /\
     snd st = fsum (map (fun i => s_exp (s_sub (znth zero x (off + i)) M)) (zrange 0 i)) /\
     forall k, 0 <= k -> znth zero (fst st) k = if (off <=? k) && (k <? off + i) then s_exp (s_sub (znth zero x k) M) else znth zero out k)
     0 fs body (out, zero)) as ([o1 sm] & E & HZ & HS & HV) end.
  - lia.
  - split; [auto|]. split; [reflexivity|]. intros k Hk. destruct (Z.leb_spec off k), (Z.ltb_spec k (off + 0)); try lia; reflexivity.
  - intros i [o sm] Hi (HZ & HS & HV). cbn [fst snd] in *. rewrite (rd_ok zero) by lia. cbn [bind]. rewrite wr_ok by lia. cbn [bind].
    rewrite (rd_ok zero) by (rewrite Zlen_upd; lia). cbn [bind]. rewrite znth_upd_eq by lia.
    eexists. split; [reflexivity|]. cbn [fst snd]. split; [rewrite Zlen_upd; auto|]. split.
    + rewrite HS. rewrite (zrange_snoc 0 i) by lia. rewrite map_app. unfold fsum. rewrite fold_left_app. reflexivity.
    + intros k Hk. destruct (Z.eq_dec k (off + i)) as [->|NE].
      * rewrite znth_upd_eq by lia. destruct (Z.leb_spec off (off + i)), (Z.ltb_spec (off + i) (off + (i + 1))); try lia. reflexivity.
      * rewrite znth_upd_neq by lia. rewrite HV by auto.
        destruct (Z.leb_spec off k), (Z.ltb_spec k (off + i)), (Z.ltb_spec k (off + (i + 1))); try lia; reflexivity.
  - cbn [fst snd] in *. rewrite E. cbn [bind].
    destruct (for_block fs off (fun i => s_div (s_exp (s_sub (znth zero x (off + i)) M)) sm)
       (fun i out0 => o <- rd out0 (off + i);; wr out0 (off + i) (s_div o sm)) o1) as (o2 & E2 & HZ2 & HV2); try lia.
    + intros i l Hi Hl Hk. rewrite (rd_ok zero) by lia. cbn [bind]. rewrite wr_ok by lia. rewrite Hk by lia. rewrite HV by lia.
      destruct (Z.leb_spec off (off + i)), (Z.ltb_spec (off + i) (off + fs)); try lia. reflexivity.
    + exists o2. split; [exact E2|]. split; [lia|]. intros k Hk. rewrite HV2 by auto.
      destruct (Z.leb_spec off k), (Z.ltb_spec k (off + fs)); cbn [andb].
      * unfold softmax_of. fold M. replace (off + (k - off)) with k by lia. f_equal. rewrite HS. unfold frow. rewrite map_map. reflexivity.
      * rewrite HV by auto. destruct (Z.leb_spec off k), (Z.ltb_spec k (off + fs)); try lia; reflexivity.
      * rewrite HV by auto. destruct (Z.leb_spec off k), (Z.ltb_spec k (off + fs)); try lia; reflexivity.
      * lia.
Qed.

(** Rows handled one after the other. *)
Lemma rows_table : forall b fs (V : Z -> T) (body : Z -> list T -> outcome (list T)) l0,
  0 <= b -> 1 <= fs -> Zlen l0 = b * fs ->
  (forall r l, 0 <= r < b -> Zlen l = b * fs -> exists l', body r l = Ok l' /\ Zlen l' = b * fs /\
     forall k, 0 <= k -> znth zero l' k = if (r * fs <=? k) && (k <? r * fs + fs) then V k else znth zero l k) ->
  for_ 0 b body l0 = Ok (ztab (b * fs) V).
Proof.
  intros b fs V body l0 Hb Hf HL HB.
  destruct (for_inv (fun r l => Zlen l = b * fs /\ forall k, 0 <= k < r * fs -> znth zero l k = V k) 0 b body l0) as (l & E & HZ & HV).
  - auto.
  - split; auto. intros; lia.
  - intros r l Hr [HZ HV]. destruct (HB r l Hr HZ) as (l' & E & HZ' & HV'). exists l'. split; [auto|]. split; [auto|].
    intros k Hk. rewrite HV' by lia. destruct (Z.leb_spec (r * fs) k), (Z.ltb_spec k (r * fs + fs)); cbn [andb]; auto; try lia; try (apply HV; lia).
  - rewrite E. f_equal. apply (list_ext zero); [rewrite Zlen_ztab by nia; auto|]. intros k Hk. rewrite HZ in Hk. rewrite HV by lia.
    rewrite znth_ztab by auto. reflexivity.
Qed.

Lemma sm_sizes_ok : forall (x : tensor T) b ds, good x -> tdims x = b :: ds -> sm_sizes x = Ok (b, prod ds).
Proof.
  intros x b ds Hg E. unfold sm_sizes. rewrite E. change (rd (b :: ds) 0) with (Ok b). cbn [bind].
  pose proof (good_dims x Hg) as HF. rewrite E in HF. inversion HF as [|? ? Hb HF']; subst.
  destruct (Z.eqb_spec b 0); [lia|]. rewrite good_size, E by auto. cbn [prod].
  rewrite (Z.mul_comm b), Z.div_mul by lia. pose proof (good_max x Hg) as HM. rewrite E in HM. cbn [prod] in HM.
  pose proof (prod_pos _ HF'). rewrite i32_id; [reflexivity|]. unfold INT_MIN. nia.
Qed.
Lemma tensor_cons : forall (x : tensor T), good x -> exists b ds, tdims x = b :: ds /\ 0 < b /\ Forall (fun d => 0 < d) ds /\ b * prod ds <= INT_MAX.
Proof.
  intros x Hg. pose proof (good_pos x Hg) as [N HF]. pose proof (good_max x Hg) as HM. destruct (tdims x) as [|b ds]; [congruence|].
  inversion HF; subst. exists b, ds. auto.
Qed.
Lemma div_row : forall F r k, 0 < F -> r * F <= k < r * F + F -> k / F = r.
Proof. intros. symmetry. apply (Z.div_unique k F r (k - r * F)); lia. Qed.

Lemma softmax_fwd_ok : forall (x : tensor T) b ds, good x -> tdims x = b :: ds -> ds <> [] ->
  softmax_fwd x = Ok (tensor_of (tdims x) (fun idx => softmax_of (row ds x (nth 0 idx 0)) (el x idx))).
Proof.
  intros x b ds Hg E HN. unfold softmax_fwd, rank. fold (tdims x).
  assert (HR : (Zlen (tdims x) <? 2) = false).
  { apply Z.ltb_ge. rewrite E. destruct ds; [congruence|]. rewrite !Zlen_cons. pose proof (Zlen_nonneg ds). lia. }
  rewrite HR, (sm_sizes_ok x b ds) by auto. cbn [bind].
  pose proof (good_dims x Hg) as HF. rewrite E in HF. inversion HF as [|? ? Hb HF']; subst. pose proof (prod_pos _ HF') as HP.
  pose proof (good_max x Hg) as HM. pose proof (good_len x Hg) as HLx. rewrite E in HM, HLx. cbn [prod] in HM, HLx.
  rewrite (rows_table b (prod ds) (fun k => softmax_of (row ds x (k / prod ds)) (znth zero (tdata x) k))).
  - cbn [bind]. f_equal. unfold tensor_of. rewrite (good_shape x) at 1 by auto. f_equal. rewrite E. cbn [prod].
    unfold ztab. apply map_ext_in. intros k HI. apply In_zrange in HI.
    rewrite <- E. unfold el. rewrite E. rewrite ravel_unravel by auto. cbn [unravel nth]. reflexivity.
  - lia.
  - lia.
  - unfold t_new. cbn. rewrite good_size, E by auto. cbn [prod]. apply Zlen_zrepeat. nia.
  - intros r l Hr Hl. assert (r * prod ds + prod ds <= b * prod ds) by nia.
    rewrite chk32_ok by (unfold INT_MIN; nia). cbn [bind].
    destruct (softmax_row_body (tdata x) l (r * prod ds) (prod ds)) as (l' & El & HZ & HV); try lia; try nia.
    exists l'. split; [exact El|]. split; [lia|]. intros k Hk. rewrite HV by auto.
    destruct (Z.leb_spec (r * prod ds) k), (Z.ltb_spec k (r * prod ds + prod ds)); cbn [andb]; auto.
    rewrite (frow_row x b ds r) by auto. rewrite (div_row (prod ds) r k) by lia. reflexivity.
Qed.
Lemma softmax_fwd_throw : forall (x : tensor T), (length (tdims x) < 2)%nat -> softmax_fwd x = Throw InvalidArgument.
Proof.
  intros x H. unfold softmax_fwd, rank. fold (tdims x). destruct (Z.ltb_spec (Zlen (tdims x)) 2); [reflexivity|unfold Zlen in *; lia].
Qed.

(** One entry of backward: the sum over j in order. *)
Definition sm_back (y g : Z -> T) (fs i : Z) : T :=
  fold_left (fun acc j => if i =? j then s_add acc (s_mul (s_mul (y i) (s_sub one (y j))) (g j))
                          else s_sub acc (s_mul (s_mul (y i) (y j)) (g j))) (zrange 0 fs) zero.
Lemma softmax_bwd_flat : forall (x g : tensor T) b ds, good x -> good g -> tdims x = b :: ds -> ds <> [] -> (2 <= length (tdims g))%nat ->
  prod (tdims x) <= prod (tdims g) ->
  exists y, softmax_fwd x = Ok y /\
  softmax_bwd x g = Ok (mkTensor (tshape x) (ztab (b * prod ds) (fun k =>
     let r := k / prod ds in
     sm_back (fun j => znth zero (tdata y) (r * prod ds + j)) (fun j => znth zero (tdata g) (r * prod ds + j)) (prod ds) (k - r * prod ds)))).
Proof.
  intros x g b ds Hg Hgg E HN HR2 HP2. pose proof (softmax_fwd_ok x b ds Hg E HN) as EF.
  set (y := tensor_of (tdims x) (fun idx => softmax_of (row ds x (nth 0 idx 0)) (el x idx))) in *.
  exists y. split; [exact EF|]. unfold softmax_bwd, rank. fold (tdims x) (tdims g).
  assert (HR : (Zlen (tdims x) <? 2) = false).
  { apply Z.ltb_ge. rewrite E. destruct ds; [congruence|]. rewrite !Zlen_cons. pose proof (Zlen_nonneg ds). lia. }
  assert (HR' : (Zlen (tdims g) <? 2) = false) by (apply Z.ltb_ge; unfold Zlen; lia).
  rewrite HR, HR'. cbn [orb]. rewrite EF. cbn [bind]. rewrite (sm_sizes_ok x b ds) by auto. cbn [bind].
  pose proof (good_dims x Hg) as HF. rewrite E in HF. inversion HF as [|? ? Hb HF']; subst. pose proof (prod_pos _ HF') as HP.
  pose proof (good_max x Hg) as HM. pose proof (good_len x Hg) as HLx. rewrite E in HM, HLx. cbn [prod] in HM, HLx.
  assert (Gy : good y) by (apply good_tensor_of; [apply good_pos; auto|apply good_max; auto]).
  assert (HLy : Zlen (tdata y) = b * prod ds) by (rewrite good_len by auto; change (tdims y) with (tdims x); rewrite E; reflexivity).
  assert (HLg : b * prod ds <= Zlen (tdata g)) by (rewrite good_len by auto; rewrite E in HP2; exact HP2).
  rewrite (rows_table b (prod ds) (fun k => let r := k / prod ds in
     sm_back (fun j => znth zero (tdata y) (r * prod ds + j)) (fun j => znth zero (tdata g) (r * prod ds + j)) (prod ds) (k - r * prod ds))).
  - reflexivity.
  - lia.
  - lia.
  - unfold t_new. cbn. rewrite good_size, E by auto. cbn [prod]. apply Zlen_zrepeat. nia.
  - intros r l Hr Hl. assert (r * prod ds + prod ds <= b * prod ds) by nia.
    rewrite chk32_ok by (unfold INT_MIN; nia). cbn [bind].
    match goal with |- context [for_ 0 (prod ds) ?body l] =>
    destruct (for_block (prod ds) (r * prod ds) (fun i => sm_back (fun j => znth zero (tdata y) (r * prod ds + j)) (fun j => znth zero (tdata g) (r * prod ds + j)) (prod ds) i)
       body l) as (l' & El & HZ & HV) end; try lia; try nia.
    + intros i l1 Hi Hl1 _.
      rewrite (for_pure 0 (prod ds) _ (fun acc j => if i =? j then s_add acc (s_mul (s_mul (znth zero (tdata y) (r * prod ds + i)) (s_sub one (znth zero (tdata y) (r * prod ds + j)))) (znth zero (tdata g) (r * prod ds + j)))
                          else s_sub acc (s_mul (s_mul (znth zero (tdata y) (r * prod ds + i)) (znth zero (tdata y) (r * prod ds + j))) (znth zero (tdata g) (r * prod ds + j))))).
      * cbn [bind]. rewrite wr_ok by nia. reflexivity.
      * intros j acc Hj. rewrite !(rd_ok zero) by nia. reflexivity.
    + exists l'. split; [exact El|]. split; [lia|]. intros k Hk. rewrite HV by auto.
      destruct (Z.leb_spec (r * prod ds) k), (Z.ltb_spec k (r * prod ds + prod ds)); cbn [andb]; auto.
      cbv zeta. rewrite (div_row (prod ds) r k) by lia. reflexivity.
Qed.

(** A gradient buffer that is too short is read past its end. *)
Lemma for_ub : forall {X} lo hi (body : Z -> X -> outcome X) s m (P : Z -> X -> Prop), lo <= m < hi -> P lo s ->
  (forall i s, lo <= i < m -> P i s -> exists s', body i s = Ok s' /\ P (i + 1) s') ->
  (forall s, P m s -> body m s = UB) -> for_ lo hi body s = UB.
Proof.
  intros X lo hi body s m P Hm HP Hs Hu. destruct (for_inv P lo m body s) as (s' & E & HP'); auto; [lia|].
  unfold for_ in *. rewrite (zrange_app lo m hi) by lia. rewrite foldM_app, E. cbn [bind].
  rewrite zrange_cons by lia. cbn [foldM]. rewrite Hu by auto. reflexivity.
Qed.
Lemma softmax_bwd_short : forall (x g : tensor T) b ds, good x -> good g -> tdims x = b :: ds -> ds <> [] -> (2 <= length (tdims g))%nat ->
  prod (tdims g) < prod (tdims x) -> softmax_bwd x g = UB.
Proof.
  intros x g b ds Hg Hgg E HN HR2 HP2. pose proof (softmax_fwd_ok x b ds Hg E HN) as EF.
  set (y := tensor_of (tdims x) (fun idx => softmax_of (row ds x (nth 0 idx 0)) (el x idx))) in *.
  unfold softmax_bwd, rank. fold (tdims x) (tdims g).
  assert (HR : (Zlen (tdims x) <? 2) = false).
  { apply Z.ltb_ge. rewrite E. destruct ds; [congruence|]. rewrite !Zlen_cons. pose proof (Zlen_nonneg ds). lia. }
  assert (HR' : (Zlen (tdims g) <? 2) = false) by (apply Z.ltb_ge; unfold Zlen; lia).
  rewrite HR, HR'. cbn [orb]. rewrite EF. cbn [bind]. rewrite (sm_sizes_ok x b ds) by auto. cbn [bind].
  pose proof (good_dims x Hg) as HF. rewrite E in HF. inversion HF as [|? ? Hb HF']; subst. pose proof (prod_pos _ HF') as HP.
  pose proof (good_max x Hg) as HM. pose proof (good_len x Hg) as HLx. rewrite E in HM, HLx. cbn [prod] in HM, HLx.
  assert (Gy : good y) by (apply good_tensor_of; [apply good_pos; auto|apply good_max; auto]).
  assert (HLy : Zlen (tdata y) = b * prod ds) by (rewrite good_len by auto; change (tdims y) with (tdims x); rewrite E; reflexivity).
  set (F := prod ds) in *. set (G := Zlen (tdata g)).
  assert (HG : G < b * F) by (unfold G; rewrite good_len by auto; rewrite E in HP2; exact HP2).
  assert (HG0 : 0 <= G) by apply Zlen_nonneg.
  pose proof (Z.div_mod G F ltac:(lia)) as DM. pose proof (Z.mod_pos_bound G F HP) as MB. pose proof (Z.div_pos G F HG0 HP) as DP.
  match goal with |- bind (for_ 0 b ?body ?s) _ = _ =>
    enough (X : for_ 0 b body s = UB) by (rewrite X; reflexivity);
    apply (for_ub 0 b body s (G / F) (fun _ l => Zlen l = b * F)) end.
  - split; [auto|]. apply Z.div_lt_upper_bound; nia.
  - unfold t_new. cbn. rewrite good_size, E by auto. cbn [prod]. apply Zlen_zrepeat. nia.
  - intros r l Hr Hl. assert (r * F + F <= G) by nia. rewrite chk32_ok by (unfold INT_MIN; nia). cbn [bind].
    match goal with |- context [for_ 0 F ?body l] => destruct (for_inv (fun _ l => Zlen l = b * F) 0 F body l) as (l' & El & HZ) end; auto; [lia| |eauto].
    intros i l1 Hi Hl1.
    rewrite (for_pure 0 F _ (fun acc j => if i =? j then s_add acc (s_mul (s_mul (znth zero (tdata y) (r * F + i)) (s_sub one (znth zero (tdata y) (r * F + j)))) (znth zero (tdata g) (r * F + j)))
                          else s_sub acc (s_mul (s_mul (znth zero (tdata y) (r * F + i)) (znth zero (tdata y) (r * F + j))) (znth zero (tdata g) (r * F + j))))).
    + cbn [bind]. rewrite wr_ok by nia. eexists; split; [reflexivity|]. rewrite Zlen_upd. auto.
    + intros j acc Hj. rewrite !(rd_ok zero) by (fold G; nia). reflexivity.
  - intros l Hl. assert (G / F * F + F <= b * F).
    { assert (G / F < b) by (apply Z.div_lt_upper_bound; nia). nia. }
    rewrite chk32_ok by (unfold INT_MIN; nia). cbn [bind].
    apply (for_ub 0 F _ l 0 (fun _ _ => True)); auto; [lia| |].
    + intros; lia.
    + intros l1 _.
      match goal with |- bind (for_ 0 F ?body zero) _ = _ =>
        enough (X : for_ 0 F body zero = UB) by (rewrite X; reflexivity);
        apply (for_ub 0 F body zero (G mod F) (fun _ _ => True)) end; auto.
      * intros j acc Hj _. rewrite !(rd_ok zero) by (fold G; nia). cbn [bind]. eauto.
      * intros acc _. rewrite !(rd_ok zero) by nia. cbn [bind]. rewrite rd_ub; [reflexivity|]. fold G. nia.
Qed.
Lemma softmax_bwd_throw : forall (x g : tensor T), (length (tdims x) < 2)%nat \/ (length (tdims g) < 2)%nat -> softmax_bwd x g = Throw InvalidArgument.
Proof.
  intros x g H. unfold softmax_bwd, rank. fold (tdims x) (tdims g).
  assert (E : ((Zlen (tdims x) <? 2) || (Zlen (tdims g) <? 2))%bool = true).
  { apply Bool.orb_true_iff. unfold Zlen. destruct H; [left|right]; apply Z.ltb_lt; lia. }
  rewrite E. reflexivity.
Qed.
End S.
