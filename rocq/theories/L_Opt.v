(** * Optimizers: every update is element-wise, and histories of calls *)
From Verif Require Import Base Scalar Types Spec M_Shape M_Tensor M_Layers M_Opt SpecOpt L_Index L_Shape L_Tensor L_Nest L_Glue L_Act.

Lemma put_eq : forall {A} (m : Z -> A) k v, put m k v k = v.
Proof. intros. unfold put. rewrite Z.eqb_refl. reflexivity. Qed.
Lemma put_neq : forall {A} (m : Z -> A) k k' v, k' <> k -> put m k v k' = m k'.
Proof. intros. unfold put. destruct (Z.eqb_spec k' k); [contradiction|reflexivity]. Qed.

(** A loop whose iteration j rewrites entry j only. *)
Lemma for_elem : forall {X E} (get : X -> Z -> E) (inv : X -> Prop) n (f : Z -> E -> E) (body : Z -> X -> outcome X) x, 0 <= n -> inv x ->
  (forall j x, 0 <= j < n -> inv x -> exists x', body j x = Ok x' /\ inv x' /\ forall i, 0 <= i < n -> get x' i = if i =? j then f j (get x j) else get x i) ->
  exists x', for_ 0 n body x = Ok x' /\ inv x' /\ forall i, 0 <= i < n -> get x' i = f i (get x i).
Proof.
  intros X E get inv n f body x Hn Hx HB.
  destruct (for_inv (fun j x' => inv x' /\ forall i, 0 <= i < n -> get x' i = if i <? j then f i (get x i) else get x i) 0 n body x) as (x' & E' & H1 & H2).
  - auto.
  - split; [auto|]. intros i Hi. destruct (Z.ltb_spec i 0); [lia|reflexivity].
  - intros j y Hj (Hy & HG). destruct (HB j y Hj Hy) as (y' & EY & HI & HE). exists y'. split; [auto|]. split; [auto|]. intros i Hi.
    rewrite HE by auto. destruct (Z.eqb_spec i j) as [->|].
    + rewrite HG by auto. destruct (Z.ltb_spec j j); [lia|]. destruct (Z.ltb_spec j (j + 1)); [reflexivity|lia].
    + rewrite HG by auto. destruct (Z.ltb_spec i j), (Z.ltb_spec i (j + 1)); auto; lia.
  - exists x'. split; [auto|]. split; [auto|]. intros i Hi. rewrite H2 by auto. destruct (Z.ltb_spec i n); [reflexivity|lia].
Qed.

Lemma fold_left_ext : forall {A B} (f g : A -> B -> A) l x, (forall a b, f a b = g a b) -> fold_left f l x = fold_left g l x.
Proof. intros A B f g l. induction l as [|b l IH]; intros x H; [reflexivity|]. cbn. rewrite H. apply IH; auto. Qed.

Section S.
Context {T : Type} {S : Scalar T}.

Lemma buf_get_ok : forall D (b : bufs T) k (w : tensor T), bufs_ok D b -> good w -> tdims w = D k ->
  good (buf_get b k (tshape w)) /\ tdims (buf_get b k (tshape w)) = D k /\
  forall idx, in_range (D k) idx -> el (buf_get b k (tshape w)) idx = buf_el b k idx.
Proof.
  intros D b k w HB Gw Ew. unfold buf_get, buf_el. specialize (HB k). destruct (b k) as [m|].
  - destruct (HB m eq_refl). auto.
  - rewrite (good_shape w Gw), Ew. assert (HP : pos_dims (D k)) by (rewrite <- Ew; apply good_pos; auto).
    split; [apply good_fill; [auto|rewrite <- Ew; apply good_max; auto]|]. split; [reflexivity|]. intros idx HI.
    rewrite tensor_of_fill by apply HP. rewrite el_tensor_of by auto. reflexivity.
Qed.
Lemma bufs_ok_put : forall D (b : bufs T) k (m : tensor T), bufs_ok D b -> good m -> tdims m = D k -> bufs_ok D (put b k (Some m)).
Proof.
  intros D b k m HB Gm Em k' m' E. unfold put in E. destruct (Z.eqb_spec k' k) as [->|]; [injection E as <-; auto|apply HB; auto].
Qed.
Lemma buf_el_put : forall (b : bufs T) k (m : tensor T) k' idx, buf_el (put b k (Some m)) k' idx = if k' =? k then el m idx else buf_el b k' idx.
Proof. intros. unfold buf_el, put. destruct (k' =? k); reflexivity. Qed.
Lemma znth_upd : forall (l : list T) j v i, 0 <= i -> 0 <= j < Zlen l -> znth zero (upd l (Z.to_nat j) v) i = if i =? j then v else znth zero l i.
Proof. intros l j v i Hi H. destruct (Z.eqb_spec i j) as [->|]; [apply znth_upd_eq; auto|apply znth_upd_neq; auto; lia]. Qed.

(** ** SGD *)
Lemma sgd_body_ok : forall (o : sgd T) gd lr j wd md, 0 <= j < Zlen wd -> Zlen md = Zlen wd -> j < Zlen gd ->
  exists p, sgd_body o gd lr j (wd, md) = Ok p /\ (Zlen (fst p) = Zlen wd /\ Zlen (snd p) = Zlen wd) /\
    forall i, 0 <= i < Zlen wd -> (znth zero (fst p) i, znth zero (snd p) i) =
      if i =? j then sgd_rule (sg_mom o) (sg_damp o) (sg_wd o) (sg_nest o) lr (znth zero gd j) (znth zero wd j, znth zero md j) else (znth zero wd i, znth zero md i).
Proof.
  intros o gd lr j wd md Hj H1 Hg. unfold sgd_body, sgd_rule.
  rewrite (rd_ok zero gd j) by lia. cbn [bind]. rewrite !(rd_ok zero wd j) by lia. cbn [bind].
  destruct (s_eq (sg_wd o) zero) eqn:E1, (s_eq (sg_mom o) zero) eqn:E2; cbn [negb bind];
    rewrite ?(rd_ok zero md j) by lia; cbn [bind]; rewrite ?(wr_ok md j) by lia; cbn [bind]; rewrite (wr_ok wd j) by lia; cbn [bind];
    (eexists; split; [reflexivity|]; split; [cbn [fst snd]; rewrite ?Zlen_upd; auto|]; intros i Hi; cbn [fst snd]; rewrite !znth_upd by lia; destruct (Z.eqb_spec i j) as [->|]; reflexivity).
Qed.
Lemma sgd_update_ok : forall D (o : sgd T) k (w g : tensor T) lr, bufs_ok D (sg_buf o) -> good w -> tdims w = D k -> good g -> tdims g = D k ->
  exists m w', sgd_update o k w g lr = (mkSGD (sg_lr o) (sg_mom o) (sg_damp o) (sg_wd o) (sg_nest o) (put (sg_buf o) k (Some m)), Ok w') /\
    good m /\ tdims m = D k /\ good w' /\ tdims w' = D k /\
    forall idx, in_range (D k) idx ->
      (el w' idx, el m idx) = sgd_rule (sg_mom o) (sg_damp o) (sg_wd o) (sg_nest o) lr (el g idx) (el w idx, buf_el (sg_buf o) k idx).
Proof.
  intros D o k w g lr HB Gw Ew Gg Eg. destruct (buf_get_ok D (sg_buf o) k w HB Gw Ew) as (Gm & Em & Vm). unfold sgd_update. set (m := buf_get _ _ _) in *.
  rewrite (good_size w Gw), Ew. assert (HP : 0 < prod (D k)) by (rewrite <- Ew; apply good_prod_pos; auto).
  destruct (for_elem (fun p i => (znth zero (fst p) i, znth zero (snd p) i)) (fun p => Zlen (fst p) = prod (D k) /\ Zlen (snd p) = prod (D k)) (prod (D k))
    (fun j p => sgd_rule (sg_mom o) (sg_damp o) (sg_wd o) (sg_nest o) lr (znth zero (tdata g) j) p) (sgd_body o (tdata g) lr) (tdata w, tdata m)) as ((w' & m') & EF & (L1 & L2) & HV).
  - lia.
  - cbn [fst snd]. rewrite (good_len w Gw), (good_len m Gm), Ew, Em. auto.
  - intros j (wd & md) Hj (H1 & H2). cbn [fst snd] in *. assert (Hg : Zlen (tdata g) = prod (D k)) by (rewrite good_len, Eg; auto).
    destruct (sgd_body_ok o (tdata g) lr j wd md) as (p & EP & (LP1 & LP2) & VP); [lia..|]. exists p. split; [exact EP|]. split; [lia|]. rewrite H1 in VP. exact VP.
  - rewrite EF. cbn [step fst snd] in *. exists (mkTensor (tshape m) m'), (mkTensor (tshape w) w'). split; [reflexivity|].
    split; [apply good_with; auto; rewrite L2, good_len, Em; auto|]. split; [exact Em|]. split; [apply good_with; auto; rewrite L1, good_len, Ew; auto|]. split; [exact Ew|].
    intros idx HI. pose proof (ravel_bound (D k) idx HI) as HR. specialize (HV _ HR). rewrite <- Vm by auto. unfold el. cbn [tdata].
    change (tdims (mkTensor (tshape w) w')) with (tdims w). change (tdims (mkTensor (tshape m) m')) with (tdims m). rewrite Ew, Em, Eg. exact HV.
Qed.

(** ** RMSProp *)
Definition rms_keep (o : rms T) (k : Z) (sq mean vel : tensor T) : rms T :=
  mkRMS (rp_lr o) (rp_alpha o) (rp_eps o) (rp_mom o) (rp_cent o) (rp_wd o) (put (rp_sq o) k (Some sq))
    (if rp_cent o then put (rp_mean o) k (Some mean) else rp_mean o) (if s_lt zero (rp_mom o) then put (rp_vel o) k (Some vel) else rp_vel o).
Definition rms_ok (D : Z -> list Z) (o : rms T) : Prop := bufs_ok D (rp_sq o) /\ bufs_ok D (rp_mean o) /\ bufs_ok D (rp_vel o).
Definition rms_aux (o : rms T) (k : Z) (idx : list Z) : T * T * T := (buf_el (rp_sq o) k idx, buf_el (rp_mean o) k idx, buf_el (rp_vel o) k idx).
Lemma rms_body_ok : forall (o : rms T) gd lr m0 v0 j wd sd md vd, let c := rp_cent o in let q := s_lt zero (rp_mom o) in
  0 <= j < Zlen wd -> Zlen sd = Zlen wd -> Zlen (if c then md else m0) = Zlen wd -> Zlen (if q then vd else v0) = Zlen wd -> j < Zlen gd ->
  exists p, rms_body o gd lr j (wd, sd, md, vd) = Ok p /\
    (let '(a, b, d, e) := p in Zlen a = Zlen wd /\ Zlen b = Zlen wd /\ Zlen (if c then d else m0) = Zlen wd /\ Zlen (if q then e else v0) = Zlen wd) /\
    forall i, 0 <= i < Zlen wd -> (let '(a, b, d, e) := p in (znth zero a i, znth zero b i, znth zero (if c then d else m0) i, znth zero (if q then e else v0) i)) =
      if i =? j then rms_rule (rp_alpha o) (rp_eps o) (rp_mom o) (rp_cent o) (rp_wd o) lr (znth zero gd j) (znth zero wd j, znth zero sd j, znth zero (if c then md else m0) j, znth zero (if q then vd else v0) j)
      else (znth zero wd i, znth zero sd i, znth zero (if c then md else m0) i, znth zero (if q then vd else v0) i).
Proof.
  intros o gd lr m0 v0 j wd sd md vd c q Hj H2 H3 H4 Hg. unfold rms_body, rms_rule. fold c q.
  rewrite (rd_ok zero gd j) by lia. cbn [bind]. rewrite !(rd_ok zero wd j), !(rd_ok zero sd j) by lia. cbn [bind].
  destruct (s_eq (rp_wd o) zero); cbn [negb bind]; rewrite (wr_ok sd j) by lia; cbn [bind];
    destruct c; rewrite ?(rd_ok zero md j) by lia; cbn [bind]; rewrite ?(wr_ok md j) by lia; cbn [bind];
    destruct q; rewrite ?(rd_ok zero vd j) by lia; cbn [bind]; rewrite ?(wr_ok vd j) by lia; cbn [bind]; rewrite ?(rd_ok zero wd j) by lia; cbn [bind]; rewrite ?(wr_ok wd j) by lia; cbn [bind];
    (eexists; split; [reflexivity|]; split; [rewrite ?Zlen_upd; auto|]; intros i Hi; rewrite !znth_upd by lia; destruct (Z.eqb_spec i j) as [->|]; reflexivity).
Qed.
Lemma rms_update_ok : forall D (o : rms T) k (w g : tensor T) lr, rms_ok D o -> good w -> tdims w = D k -> good g -> tdims g = D k ->
  exists o' w', rms_update o k w g lr = (o', Ok w') /\ rms_ok D o' /\
    rp_lr o' = rp_lr o /\ rp_alpha o' = rp_alpha o /\ rp_eps o' = rp_eps o /\ rp_mom o' = rp_mom o /\ rp_cent o' = rp_cent o /\ rp_wd o' = rp_wd o /\
    good w' /\ tdims w' = D k /\
    (forall idx, in_range (D k) idx -> let '(s, m, v) := rms_aux o k idx in let '(s', m', v') := rms_aux o' k idx in
      (el w' idx, s', m', v') = rms_rule (rp_alpha o) (rp_eps o) (rp_mom o) (rp_cent o) (rp_wd o) lr (el g idx) (el w idx, s, m, v)) /\
    forall k' idx, k' <> k -> rms_aux o' k' idx = rms_aux o k' idx.
Proof.
  intros D o k w g lr (HS & HM & HV) Gw Ew Gg Eg.
  destruct (buf_get_ok D (rp_sq o) k w HS Gw Ew) as (Gs & Es & Vs). destruct (buf_get_ok D (rp_mean o) k w HM Gw Ew) as (Gm & Em & Vm).
  destruct (buf_get_ok D (rp_vel o) k w HV Gw Ew) as (Gv & Ev & Vv). unfold rms_update.
  set (s := buf_get (rp_sq o) _ _) in *. set (m := buf_get (rp_mean o) _ _) in *. set (v := buf_get (rp_vel o) _ _) in *.
  rewrite (good_size w Gw), Ew. assert (HP : 0 < prod (D k)) by (rewrite <- Ew; apply good_prod_pos; auto).
  set (c := rp_cent o). set (q := s_lt zero (rp_mom o)).
  destruct (for_elem (fun p i => let '(a, b, d, e) := p in (znth zero a i, znth zero b i, znth zero (if c then d else tdata m) i, znth zero (if q then e else tdata v) i))
    (fun p => let '(a, b, d, e) := p in Zlen a = prod (D k) /\ Zlen b = prod (D k) /\ Zlen (if c then d else tdata m) = prod (D k) /\ Zlen (if q then e else tdata v) = prod (D k)) (prod (D k))
    (fun j p => rms_rule (rp_alpha o) (rp_eps o) (rp_mom o) (rp_cent o) (rp_wd o) lr (znth zero (tdata g) j) p) (rms_body o (tdata g) lr)
    (tdata w, tdata s, if c then tdata m else [], if q then tdata v else [])) as ((((w' & s') & m') & v') & EF & (L1 & L2 & L3 & L4) & HVal).
  - lia.
  - rewrite (good_len w Gw), (good_len s Gs), Ew, Es. split; [auto|]. split; [auto|]. split; [destruct c|destruct q]; rewrite good_len by auto; congruence.
  - intros j (((wd & sd) & md) & vd) Hj (H1 & H2 & H3 & H4). assert (Hg : Zlen (tdata g) = prod (D k)) by (rewrite good_len, Eg; auto).
    destruct (rms_body_ok o (tdata g) lr (tdata m) (tdata v) j wd sd md vd) as (p & EP & IP & VP); fold c q; [lia..|]. fold c q in IP, VP. exists p. split; [exact EP|].
    rewrite H1 in VP, IP. split; [exact IP|exact VP].
  - fold c q. rewrite EF. cbn [step]. eexists. exists (mkTensor (tshape w) w'). split; [reflexivity|].
    assert (GS : good (mkTensor (tshape s) s')) by (apply good_with; auto; rewrite L2, good_len, Es; auto).
    assert (GM : c = true -> good (mkTensor (tshape m) m')) by (intros HC; rewrite HC in L3; apply good_with; auto; rewrite L3, good_len, Em; auto).
    assert (GV : q = true -> good (mkTensor (tshape v) v')) by (intros HC; rewrite HC in L4; apply good_with; auto; rewrite L4, good_len, Ev; auto).
    split; [split; [|split]; cbn [rp_sq rp_mean rp_vel]; [apply bufs_ok_put; auto| |]|].
    { destruct c; [apply bufs_ok_put; auto|auto]. }
    { destruct q; [apply bufs_ok_put; auto|auto]. }
    do 6 (split; [reflexivity|]). split; [apply good_with; auto; rewrite L1, good_len, Ew; auto|]. split; [exact Ew|]. split.
    + intros idx HI. pose proof (ravel_bound (D k) idx HI) as HR. specialize (HVal _ HR). unfold rms_aux. cbn [rp_sq rp_mean rp_vel].
      replace (buf_el (if c then put (rp_mean o) k (Some (mkTensor (tshape m) m')) else rp_mean o) k idx) with (znth zero (if c then m' else tdata m) (ravel (D k) idx)).
      2:{ destruct c; [rewrite buf_el_put, Z.eqb_refl; unfold el; rewrite <- Em; reflexivity|rewrite <- Vm by auto; unfold el; rewrite Em; reflexivity]. }
      replace (buf_el (if q then put (rp_vel o) k (Some (mkTensor (tshape v) v')) else rp_vel o) k idx) with (znth zero (if q then v' else tdata v) (ravel (D k) idx)).
      2:{ destruct q; [rewrite buf_el_put, Z.eqb_refl; unfold el; rewrite <- Ev; reflexivity|rewrite <- Vv by auto; unfold el; rewrite Ev; reflexivity]. }
      rewrite buf_el_put, Z.eqb_refl. rewrite <- Vs, <- Vm, <- Vv by auto. unfold el. cbn [tdata].
      change (tdims (mkTensor (tshape w) w')) with (tdims w). change (tdims (mkTensor (tshape s) s')) with (tdims s). rewrite Ew, Es, Em, Ev, Eg. fold c in HVal |- *. destruct c, q; exact HVal.
    + intros k' idx NE. unfold rms_aux. cbn [rp_sq rp_mean rp_vel]. apply Z.eqb_neq in NE. destruct c, q; rewrite !buf_el_put, ?NE; reflexivity.
Qed.

(** ** Adam *)
Definition adam_ok (D : Z -> list Z) (o : adam T) : Prop := bufs_ok D (ad_m o) /\ bufs_ok D (ad_v o).
Lemma adam_body_ok : forall (o : adam T) gd al j wd md vd, 0 <= j < Zlen wd -> Zlen md = Zlen wd -> Zlen vd = Zlen wd -> j < Zlen gd ->
  exists p, adam_body o gd al j (wd, md, vd) = Ok p /\ (let '(a, b, d) := p in Zlen a = Zlen wd /\ Zlen b = Zlen wd /\ Zlen d = Zlen wd) /\
    forall i, 0 <= i < Zlen wd -> (let '(a, b, d) := p in (znth zero a i, znth zero b i, znth zero d i)) =
      if i =? j then adam_param o al (znth zero wd j) (znth zero gd j) (znth zero md j) (znth zero vd j) else (znth zero wd i, znth zero md i, znth zero vd i).
Proof.
  intros o gd al j wd md vd Hj H2 H3 Hg. unfold adam_body.
  rewrite (rd_ok zero wd j), (rd_ok zero gd j), (rd_ok zero md j), (rd_ok zero vd j) by lia. cbn [bind].
  destruct (adam_param o al (znth zero wd j) (znth zero gd j) (znth zero md j) (znth zero vd j)) as ((a & b) & d) eqn:EP.
  rewrite !wr_ok by lia. cbn [bind]. eexists; split; [reflexivity|]; split; [rewrite ?Zlen_upd; auto|]; intros i Hi; rewrite !znth_upd by lia; destruct (Z.eqb_spec i j) as [->|]; reflexivity.
Qed.
Lemma adam_update_ok : forall D (o : adam T) k (w g : tensor T) u, adam_ok D o -> good w -> tdims w = D k -> good g -> tdims g = D k ->
  exists m v w', adam_update o k w g u = (adam_with o k m v, Ok w') /\ adam_ok D (adam_with o k m v) /\ good w' /\ tdims w' = D k /\
    forall idx, in_range (D k) idx ->
      (el w' idx, el m idx, el v idx) = adam_param o (adam_alpha o) (el w idx) (el g idx) (buf_el (ad_m o) k idx) (buf_el (ad_v o) k idx).
Proof.
  intros D o k w g u (HM & HV) Gw Ew Gg Eg.
  destruct (buf_get_ok D (ad_m o) k w HM Gw Ew) as (Gm & Em & Vm). destruct (buf_get_ok D (ad_v o) k w HV Gw Ew) as (Gv & Ev & Vv). unfold adam_update.
  set (m := buf_get (ad_m o) _ _) in *. set (v := buf_get (ad_v o) _ _) in *.
  rewrite (good_size w Gw), Ew. assert (HP : 0 < prod (D k)) by (rewrite <- Ew; apply good_prod_pos; auto).
  destruct (for_elem (fun p i => let '(a, b, d) := p in (znth zero a i, znth zero b i, znth zero d i))
    (fun p => let '(a, b, d) := p in Zlen a = prod (D k) /\ Zlen b = prod (D k) /\ Zlen d = prod (D k)) (prod (D k))
    (fun j p => let '(a, b, d) := p in adam_param o (adam_alpha o) a (znth zero (tdata g) j) b d) (adam_body o (tdata g) (adam_alpha o)) (tdata w, tdata m, tdata v))
    as (((w' & m') & v') & EF & (L1 & L2 & L3) & HVal).
  - lia.
  - rewrite !good_len, Ew, Em, Ev by auto. auto.
  - intros j ((wd & md) & vd) Hj (H1 & H2 & H3). assert (Hg : Zlen (tdata g) = prod (D k)) by (rewrite good_len, Eg; auto).
    destruct (adam_body_ok o (tdata g) (adam_alpha o) j wd md vd) as (p & EP & IP & VP); [lia..|]. exists p. split; [exact EP|]. rewrite H1 in VP, IP. split; [exact IP|exact VP].
  - rewrite EF. cbn [step]. exists (mkTensor (tshape m) m'), (mkTensor (tshape v) v'), (mkTensor (tshape w) w'). split; [reflexivity|].
    split; [split; cbn [adam_with ad_m ad_v]; apply bufs_ok_put; auto; apply good_with; auto; rewrite good_len by auto; congruence|].
    split; [apply good_with; auto; rewrite L1, good_len, Ew; auto|]. split; [exact Ew|].
    intros idx HI. pose proof (ravel_bound (D k) idx HI) as HR. specialize (HVal _ HR). rewrite <- Vm, <- Vv by auto. unfold el. cbn [tdata].
    change (tdims (mkTensor (tshape w) w')) with (tdims w). change (tdims (mkTensor (tshape m) m')) with (tdims m). change (tdims (mkTensor (tshape v) v')) with (tdims v).
    rewrite Ew, Em, Ev, Eg. exact HVal.
Qed.

(** ** A gradient with fewer elements than its weight is read past its end. *)
Lemma sgd_short : forall D (o : sgd T) k (w g : tensor T) lr, bufs_ok D (sg_buf o) -> good w -> tdims w = D k -> good g -> prod (tdims g) < prod (D k) ->
  snd (sgd_update o k w g lr) = UB.
Proof.
  intros D o k w g lr HB Gw Ew Gg Hg. destruct (buf_get_ok D (sg_buf o) k w HB Gw Ew) as (Gm & Em & _). unfold sgd_update. set (m := buf_get _ _ _) in *.
  rewrite (good_size w Gw), Ew. pose proof (good_prod_pos g Gg) as HP. pose proof (good_len g Gg) as HL.
  rewrite (for_ub _ _ _ _ (prod (tdims g)) (fun _ p => Zlen (fst p) = prod (D k) /\ Zlen (snd p) = prod (D k))); [reflexivity|lia| | |].
  - cbn [fst snd]. rewrite !good_len, Ew, Em by auto. auto.
  - intros j (wd & md) Hj (H1 & H2). cbn [fst snd] in *. destruct (sgd_body_ok o (tdata g) lr j wd md) as (p & EP & (L1 & L2) & _); [lia..|]. exists p. split; [auto|lia].
  - intros (wd & md) _. unfold sgd_body. rewrite rd_ub by lia. reflexivity.
Qed.
Lemma rms_short : forall D (o : rms T) k (w g : tensor T) lr, rms_ok D o -> good w -> tdims w = D k -> good g -> prod (tdims g) < prod (D k) ->
  snd (rms_update o k w g lr) = UB.
Proof.
  intros D o k w g lr (HS & HM & HV) Gw Ew Gg Hg.
  destruct (buf_get_ok D (rp_sq o) k w HS Gw Ew) as (Gs & Es & _). destruct (buf_get_ok D (rp_mean o) k w HM Gw Ew) as (Gm & Em & _).
  destruct (buf_get_ok D (rp_vel o) k w HV Gw Ew) as (Gv & Ev & _). unfold rms_update.
  set (s := buf_get (rp_sq o) _ _) in *. set (m := buf_get (rp_mean o) _ _) in *. set (v := buf_get (rp_vel o) _ _) in *.
  rewrite (good_size w Gw), Ew. pose proof (good_prod_pos g Gg) as HP. pose proof (good_len g Gg) as HL.
  set (c := rp_cent o). set (q := s_lt zero (rp_mom o)).
  rewrite (for_ub _ _ _ _ (prod (tdims g)) (fun _ p => let '(a, b, d, e) := p in Zlen a = prod (D k) /\ Zlen b = prod (D k) /\ Zlen (if c then d else tdata m) = prod (D k) /\ Zlen (if q then e else tdata v) = prod (D k))); [reflexivity|lia| | |].
  - split; [rewrite good_len, Ew by auto; auto|]. split; [rewrite good_len, Es by auto; auto|]. split; [destruct c|destruct q]; rewrite good_len by auto; congruence.
  - intros j (((wd & sd) & md) & vd) Hj (H1 & H2 & H3 & H4).
    destruct (rms_body_ok o (tdata g) lr (tdata m) (tdata v) j wd sd md vd) as (p & EP & IP & _); fold c q; [lia..|]. exists p. split; [auto|]. fold c q in IP. rewrite H1 in IP. exact IP.
  - intros (((wd & sd) & md) & vd) _. unfold rms_body. rewrite rd_ub by lia. reflexivity.
Qed.
Lemma adam_short : forall D (o : adam T) k (w g : tensor T) u, adam_ok D o -> good w -> tdims w = D k -> good g -> prod (tdims g) < prod (D k) ->
  snd (adam_update o k w g u) = UB.
Proof.
  intros D o k w g u (HM & HV) Gw Ew Gg Hg.
  destruct (buf_get_ok D (ad_m o) k w HM Gw Ew) as (Gm & Em & _). destruct (buf_get_ok D (ad_v o) k w HV Gw Ew) as (Gv & Ev & _). unfold adam_update.
  set (m := buf_get (ad_m o) _ _) in *. set (v := buf_get (ad_v o) _ _) in *.
  rewrite (good_size w Gw), Ew. pose proof (good_prod_pos g Gg) as HP. pose proof (good_len g Gg) as HL.
  rewrite (for_ub _ _ _ _ (prod (tdims g)) (fun _ p => let '(a, b, d) := p in Zlen a = prod (D k) /\ Zlen b = prod (D k) /\ Zlen d = prod (D k))); [reflexivity|lia| | |].
  - rewrite !good_len, Ew, Em, Ev by auto. auto.
  - intros j ((wd & md) & vd) Hj (H1 & H2 & H3).
    destruct (adam_body_ok o (tdata g) (adam_alpha o) j wd md vd) as (p & EP & IP & _); [lia..|]. exists p. split; [auto|]. rewrite H1 in IP. exact IP.
  - intros ((wd & md) & vd) (H1 & _). unfold adam_body. rewrite (rd_ok zero wd) by lia. cbn [bind]. rewrite rd_ub by lia. reflexivity.
Qed.

(** ** One call *)
Section Loop.
Context {O C A : Type}.
Variable update : O -> Z -> tensor T -> tensor T -> C -> O * outcome (tensor T).
Variable D : Z -> list Z.
Variable inv : O -> Prop.
Variable same : O -> O -> Prop.
Variable aux : O -> Z -> list Z -> A.
Variable rule : O -> C -> T -> T * A -> T * A.
Hypothesis same_refl : forall o, same o o.
Hypothesis same_trans : forall o1 o2 o3, same o1 o2 -> same o2 o3 -> same o1 o3.
Hypothesis rule_same : forall o o', same o o' -> rule o' = rule o.
Hypothesis update_ok : forall o k w g c, inv o -> good w -> tdims w = D k -> good g -> tdims g = D k ->
  exists o' w', update o k w g c = (o', Ok w') /\ inv o' /\ same o o' /\ good w' /\ tdims w' = D k /\
    (forall idx, in_range (D k) idx -> (el w' idx, aux o' k idx) = rule o c (el g idx) (el w idx, aux o k idx)) /\
    forall k' idx, k' <> k -> aux o' k' idx = aux o k' idx.
Lemma loop_ok : forall c l o st, inv o -> store_ok D st -> Forall (fun p => good (snd p) /\ tdims (snd p) = D (fst p)) l ->
  exists o' st', opt_loop update c l o st = (o', st', Ok tt) /\ inv o' /\ same o o' /\ store_ok D st' /\
    forall k idx, in_range (D k) idx -> (el (st' k) idx, aux o' k idx) = fold_left (fun p g => rule o c (el g idx) p) (grads k l) (el (st k) idx, aux o k idx).
Proof.
  intros c. induction l as [|(k0, g) l IH]; intros o st HO HS HL.
  - exists o, st. cbn. auto.
  - inversion HL as [|? ? (Gg & Eg) HL']; subst. cbn [fst snd] in *. destruct (HS k0) as (Gw & Ew).
    destruct (update_ok o k0 (st k0) g c HO Gw Ew Gg Eg) as (o1 & w1 & E1 & I1 & S1 & G1 & D1 & V1 & A1).
    assert (HS1 : store_ok D (put st k0 w1)).
    { intros k. unfold put. destruct (Z.eqb_spec k k0) as [->|]; [auto|apply HS]. }
    destruct (IH o1 (put st k0 w1) I1 HS1 HL') as (o' & st' & E & I' & S' & HS' & V). exists o', st'. cbn [opt_loop]. rewrite E1.
    split; [exact E|]. split; [auto|]. split; [eauto|]. split; [auto|]. intros k idx HI. rewrite V by auto. rewrite (rule_same o o1 S1).
    unfold grads. cbn [filter fst]. destruct (Z.eqb_spec k0 k) as [->|NE].
    + cbn [map snd fold_left]. rewrite put_eq, V1 by auto. reflexivity.
    + rewrite put_neq, A1 by auto. reflexivity.
Qed.
End Loop.

Lemma combine_split : forall {X Y} (l : list (X * Y)), combine (map fst l) (map snd l) = l.
Proof. induction l as [|(a, b) l IH]; cbn; congruence. Qed.
Lemma split_len : forall {X Y} (l : list (X * Y)), negb (Zlen (map fst l) =? Zlen (map snd l)) = false.
Proof. intros. rewrite !Zlen_map, Z.eqb_refl. reflexivity. Qed.

(** ** Histories *)
Definition sgd_same (o o' : sgd T) : Prop := sg_lr o' = sg_lr o /\ sg_mom o' = sg_mom o /\ sg_damp o' = sg_damp o /\ sg_wd o' = sg_wd o /\ sg_nest o' = sg_nest o.
Lemma sgd_call_ok : forall D (l : list (Z * tensor T)) lro (o : sgd T) st, bufs_ok D (sg_buf o) -> store_ok D st -> Forall (fun p => good (snd p) /\ tdims (snd p) = D (fst p)) l ->
  exists o' st', sgd_optimize o st (map fst l) (map snd l) lro = (o', st', Ok tt) /\ bufs_ok D (sg_buf o') /\ sgd_same o o' /\ store_ok D st' /\
    forall k idx, in_range (D k) idx -> (el (st' k) idx, buf_el (sg_buf o') k idx) =
      fold_left (fun p g => sgd_rule (sg_mom o) (sg_damp o) (sg_wd o) (sg_nest o) (rate (sg_lr o) lro) (el g idx) p) (grads k l) (el (st k) idx, buf_el (sg_buf o) k idx).
Proof.
  intros D l lro o st HO HS HL. unfold sgd_optimize. rewrite split_len, combine_split.
  apply (loop_ok sgd_update D (fun o => bufs_ok D (sg_buf o)) sgd_same (fun o k idx => buf_el (sg_buf o) k idx) (fun o lr g p => sgd_rule (sg_mom o) (sg_damp o) (sg_wd o) (sg_nest o) lr g p)); auto.
  - intros. unfold sgd_same. auto.
  - intros o1 o2 o3 (?&?&?&?&?) (?&?&?&?&?). unfold sgd_same. intuition congruence.
  - intros o1 o2 (?&E1&E2&E3&E4). rewrite E1, E2, E3, E4. reflexivity.
  - intros o1 k w g c HO1 Gw Ew Gg Eg. destruct (sgd_update_ok D o1 k w g c HO1 Gw Ew Gg Eg) as (m & w' & E & Gm & Em & Gw' & Ew' & V).
    eexists; eexists. split; [exact E|]. split; [cbn [sg_buf]; apply bufs_ok_put; auto|]. split; [unfold sgd_same; cbn; auto|]. split; [auto|]. split; [auto|]. cbn [sg_buf]. split.
    + intros idx HI. rewrite buf_el_put, Z.eqb_refl. apply V; auto.
    + intros k' idx NE. rewrite buf_el_put. apply Z.eqb_neq in NE. rewrite NE. reflexivity.
Qed.
Lemma fold_left_flat : forall {X Y Z0 W} (f : X -> W -> X) (h : Y -> list Z0) (t : Y -> Z0 -> W) ys x,
  fold_left f (flat_map (fun y => map (t y) (h y)) ys) x = fold_left (fun x y => fold_left (fun x z => f x (t y z)) (h y) x) ys x.
Proof.
  induction ys as [|y ys IH]; intros x; [reflexivity|]. cbn [flat_map fold_left]. rewrite fold_left_app, IH. f_equal.
  generalize (h y) x. clear. induction l as [|z l IH]; intros x; [reflexivity|]. cbn. apply IH.
Qed.
Lemma sgd_history : forall D cs (o : sgd T) st, bufs_ok D (sg_buf o) -> store_ok D st -> calls_ok D cs ->
  exists o' st', opt_run sgd_optimize cs o st = (o', st', Ok tt) /\ bufs_ok D (sg_buf o') /\ sgd_same o o' /\ store_ok D st' /\
    forall k idx, in_range (D k) idx -> (el (st' k) idx, buf_el (sg_buf o') k idx) =
      fold_left (fun p e => sgd_rule (sg_mom o) (sg_damp o) (sg_wd o) (sg_nest o) (rate (sg_lr o) (fst e)) (el (snd e) idx) p) (updates k cs) (el (st k) idx, buf_el (sg_buf o) k idx).
Proof.
  intros D. induction cs as [|(lro, l) cs IH]; intros o st HO HS HC.
  - exists o, st. cbn. unfold sgd_same. auto 10.
  - inversion HC as [|? ? HL HC']; subst. cbn [snd] in HL. destruct (sgd_call_ok D l lro o st HO HS HL) as (o1 & st1 & E1 & I1 & (S1 & S2 & S3 & S4 & S5) & HS1 & V1).
    destruct (IH o1 st1 I1 HS1 HC') as (o' & st' & E' & I' & S' & HS' & V'). exists o', st'. cbn [opt_run]. rewrite E1. split; [exact E'|]. split; [auto|].
    split; [destruct S' as (?&?&?&?&?); unfold sgd_same; intuition congruence|]. split; [auto|]. intros k idx HI. rewrite V' by auto. rewrite V1 by auto. rewrite S1, S2, S3, S4, S5.
    unfold updates. cbn [flat_map fst snd]. rewrite fold_left_app. f_equal. generalize (grads k l), (el (st k) idx, buf_el (sg_buf o) k idx). clear.
    induction l as [|z l IH]; intros x; [reflexivity|]. cbn [map fold_left fst snd]. apply IH.
Qed.

Definition rms_same (o o' : rms T) : Prop := rp_lr o' = rp_lr o /\ rp_alpha o' = rp_alpha o /\ rp_eps o' = rp_eps o /\ rp_mom o' = rp_mom o /\ rp_cent o' = rp_cent o /\ rp_wd o' = rp_wd o.
(** The rule with the state as one component. *)
Definition rms_rule' (o : rms T) (lr g : T) (p : T * (T * T * T)) : T * (T * T * T) :=
  let '(w, (s, m, v)) := p in
  let '(w', s', m', v') := rms_rule (rp_alpha o) (rp_eps o) (rp_mom o) (rp_cent o) (rp_wd o) lr g (w, s, m, v) in (w', (s', m', v')).
Lemma rms_call_ok : forall D (l : list (Z * tensor T)) lro (o : rms T) st, rms_ok D o -> store_ok D st -> Forall (fun p => good (snd p) /\ tdims (snd p) = D (fst p)) l ->
  exists o' st', rms_optimize o st (map fst l) (map snd l) lro = (o', st', Ok tt) /\ rms_ok D o' /\ rms_same o o' /\ store_ok D st' /\
    forall k idx, in_range (D k) idx -> (el (st' k) idx, rms_aux o' k idx) =
      fold_left (fun p g => rms_rule' o (rate (rp_lr o) lro) (el g idx) p) (grads k l) (el (st k) idx, rms_aux o k idx).
Proof.
  intros D l lro o st HO HS HL. unfold rms_optimize. rewrite split_len, combine_split.
  apply (loop_ok rms_update D (rms_ok D) rms_same rms_aux rms_rule'); auto.
  - intros. unfold rms_same. auto 10.
  - intros o1 o2 o3 (?&?&?&?&?&?) (?&?&?&?&?&?). unfold rms_same. intuition congruence.
  - intros o1 o2 (?&E1&E2&E3&E4&E5). unfold rms_rule'. rewrite E1, E2, E3, E4, E5. reflexivity.
  - intros o1 k w g c HO1 Gw Ew Gg Eg. destruct (rms_update_ok D o1 k w g c HO1 Gw Ew Gg Eg) as (o' & w' & E & I & S1 & S2 & S3 & S4 & S5 & S6 & Gw' & Ew' & V & A).
    exists o', w'. split; [exact E|]. split; [auto|]. split; [unfold rms_same; auto 10|]. split; [auto|]. split; [auto|]. split; [|auto].
    intros idx HI. specialize (V idx HI). unfold rms_rule'. destruct (rms_aux o1 k idx) as ((s & m) & v). destruct (rms_aux o' k idx) as ((s' & m') & v'). rewrite <- V. reflexivity.
Qed.
Lemma rms_history : forall D cs (o : rms T) st, rms_ok D o -> store_ok D st -> calls_ok D cs ->
  exists o' st', opt_run rms_optimize cs o st = (o', st', Ok tt) /\ rms_ok D o' /\ rms_same o o' /\ store_ok D st' /\
    forall k idx, in_range (D k) idx -> (el (st' k) idx, rms_aux o' k idx) =
      fold_left (fun p e => rms_rule' o (rate (rp_lr o) (fst e)) (el (snd e) idx) p) (updates k cs) (el (st k) idx, rms_aux o k idx).
Proof.
  intros D. induction cs as [|(lro, l) cs IH]; intros o st HO HS HC.
  - exists o, st. cbn. unfold rms_same. auto 10.
  - inversion HC as [|? ? HL HC']; subst. cbn [snd] in HL. destruct (rms_call_ok D l lro o st HO HS HL) as (o1 & st1 & E1 & I1 & SS & HS1 & V1).
    destruct (IH o1 st1 I1 HS1 HC') as (o' & st' & E' & I' & S' & HS' & V'). exists o', st'. cbn [opt_run]. rewrite E1. split; [exact E'|]. split; [auto|].
    destruct SS as (S1 & S2 & S3 & S4 & S5 & S6). split; [destruct S' as (?&?&?&?&?&?); unfold rms_same; intuition congruence|]. split; [auto|]. intros k idx HI. rewrite V' by auto. rewrite V1 by auto.
    unfold rms_rule'. rewrite S1, S2, S3, S4, S5, S6.
    unfold updates. cbn [flat_map fst snd]. rewrite fold_left_app. f_equal. generalize (grads k l), (el (st k) idx, rms_aux o k idx). clear.
    induction l as [|z l IH]; intros x; [reflexivity|]. cbn [map fold_left fst snd]. apply IH.
Qed.

(** Adam: the optimizer inside call number [n] with override [lro]. *)
Definition adam_at (o : adam T) (n : Z) (lro : T) : adam T :=
  mkAdam (ad_init o) (adam_lr (ad_init o) (ad_decay o) n lro) (ad_b1 o) (ad_b2 o) (ad_eps o) (ad_l1 o) (ad_l2 o) (ad_decay o) n (ad_batch o) (ad_m o) (ad_v o).
Definition adam_same (o o' : adam T) : Prop :=
  ad_init o' = ad_init o /\ ad_lr o' = ad_lr o /\ ad_b1 o' = ad_b1 o /\ ad_b2 o' = ad_b2 o /\ ad_eps o' = ad_eps o /\ ad_l1 o' = ad_l1 o /\ ad_l2 o' = ad_l2 o /\ ad_decay o' = ad_decay o /\
  ad_it o' = ad_it o /\ ad_batch o' = ad_batch o.
Definition adam_aux (o : adam T) (k : Z) (idx : list Z) : T * T := (buf_el (ad_m o) k idx, buf_el (ad_v o) k idx).
Definition adam_rule' (o : adam T) (g : T) (p : T * (T * T)) : T * (T * T) :=
  let '(w, (m, v)) := p in let '(w', m', v') := adam_param o (adam_alpha o) w g m v in (w', (m', v')).
Lemma adam_loop_ok : forall D (l : list (Z * tensor T)) (o : adam T) st, adam_ok D o -> store_ok D st -> Forall (fun p => good (snd p) /\ tdims (snd p) = D (fst p)) l ->
  exists o' st', opt_loop adam_update tt l o st = (o', st', Ok tt) /\ adam_ok D o' /\ adam_same o o' /\ store_ok D st' /\
    forall k idx, in_range (D k) idx -> (el (st' k) idx, adam_aux o' k idx) = fold_left (fun p g => adam_rule' o (el g idx) p) (grads k l) (el (st k) idx, adam_aux o k idx).
Proof.
  intros D l o st HO HS HL.
  apply (loop_ok adam_update D (adam_ok D) adam_same adam_aux (fun o _ g p => adam_rule' o g p)); auto.
  - intros. unfold adam_same. auto 15.
  - intros o1 o2 o3 (?&?&?&?&?&?&?&?&?&?) (?&?&?&?&?&?&?&?&?&?). unfold adam_same. intuition congruence.
  - intros o1 o2 (E0&E1&E2&E3&E4&E5&E6&E7&E8&E9). unfold adam_rule', adam_param, adam_alpha. rewrite E1, E2, E3, E4, E5, E6, E8, E9. reflexivity.
  - intros o1 k w g c HO1 Gw Ew Gg Eg. destruct (adam_update_ok D o1 k w g c HO1 Gw Ew Gg Eg) as (m & v & w' & E & I & Gw' & Ew' & V).
    eexists; eexists. split; [exact E|]. split; [auto|]. split; [unfold adam_same; cbn; auto 15|]. split; [auto|]. split; [auto|]. unfold adam_aux, adam_rule'. cbn [adam_with ad_m ad_v]. split.
    + intros idx HI. rewrite !buf_el_put, Z.eqb_refl. rewrite <- V by auto. reflexivity.
    + intros k' idx NE. rewrite !buf_el_put. apply Z.eqb_neq in NE. rewrite NE. reflexivity.
Qed.
Lemma adam_call_ok : forall D (l : list (Z * tensor T)) lro (o : adam T) st, adam_ok D o -> store_ok D st -> 0 <= ad_it o < INT_MAX -> Forall (fun p => good (snd p) /\ tdims (snd p) = D (fst p)) l ->
  exists o' st', adam_optimize o st (map fst l) (map snd l) lro = (o', st', Ok tt) /\ adam_ok D o' /\ adam_same (adam_at o (ad_it o + 1) lro) o' /\ store_ok D st' /\
    forall k idx, in_range (D k) idx -> (el (st' k) idx, adam_aux o' k idx) =
      fold_left (fun p g => adam_rule' (adam_at o (ad_it o + 1) lro) (el g idx) p) (grads k l) (el (st k) idx, adam_aux o k idx).
Proof.
  intros D l lro o st HO HS HI HL. unfold adam_optimize. rewrite split_len, combine_split. unfold adam_rate. rewrite chk32_ok by (unfold INT_MIN; lia). cbn [bind].
  apply (adam_loop_ok D l (adam_at o (ad_it o + 1) lro) st); auto.
Qed.
Lemma adam_history : forall D cs (o : adam T) st, adam_ok D o -> store_ok D st -> 0 <= ad_it o -> ad_it o + Zlen cs <= INT_MAX -> calls_ok D cs ->
  exists o' st', opt_run adam_optimize cs o st = (o', st', Ok tt) /\ adam_ok D o' /\ store_ok D st' /\
    ad_it o' = ad_it o + Zlen cs /\ (forall n lro, adam_same (adam_at o n lro) (adam_at o' n lro)) /\
    forall k idx, in_range (D k) idx -> (el (st' k) idx, adam_aux o' k idx) =
      fold_left (fun p e => adam_rule' (adam_at o (fst (fst e)) (snd (fst e))) (el (snd e) idx) p) (numbered (ad_it o + 1) k cs) (el (st k) idx, adam_aux o k idx).
Proof.
  intros D. induction cs as [|(lro, l) cs IH]; intros o st HO HS H0 HM HC.
  - exists o, st. cbn. rewrite Zlen_nil. unfold adam_same. cbn. split; [auto|]. split; [auto|]. split; [auto|]. split; [lia|]. auto 15.
  - inversion HC as [|? ? HL HC']; subst. cbn [snd] in HL. rewrite Zlen_cons in HM. pose proof (Zlen_nonneg cs) as HN.
    destruct (adam_call_ok D l lro o st HO HS ltac:(lia) HL) as (o1 & st1 & E1 & I1 & SS & HS1 & V1).
    destruct SS as (S0&S1&S2&S3&S4&S5&S6&S7&S8&S9). cbn [adam_at ad_init ad_lr ad_b1 ad_b2 ad_eps ad_l1 ad_l2 ad_decay ad_it ad_batch] in *.
    destruct (IH o1 st1 I1 HS1 ltac:(lia) ltac:(lia) HC') as (o' & st' & E' & I' & HS' & T' & A' & V'). exists o', st'. cbn [opt_run]. rewrite E1. split; [exact E'|]. split; [auto|]. split; [auto|].
    split; [rewrite Zlen_cons; lia|]. split.
    { intros n r. specialize (A' n r). unfold adam_same in *. cbn [adam_at ad_init ad_lr ad_b1 ad_b2 ad_eps ad_l1 ad_l2 ad_decay ad_it ad_batch] in *. rewrite S0, S7 in A'. intuition congruence. }
    intros k idx HI. rewrite V' by auto. rewrite V1 by auto. rewrite S8.
    cbn [numbered fst snd]. rewrite fold_left_app.
    assert (ER : forall n r, adam_rule' (adam_at o1 n r) = adam_rule' (adam_at o n r)).
    { intros n r. unfold adam_rule', adam_param, adam_alpha. cbn [adam_at ad_init ad_lr ad_b1 ad_b2 ad_eps ad_l1 ad_l2 ad_decay ad_it ad_batch]. rewrite S0, S2, S3, S4, S5, S6, S7, S9. reflexivity. }
    rewrite (fold_left_ext _ (fun p e => adam_rule' (adam_at o (fst (fst e)) (snd (fst e))) (el (snd e) idx) p)) by (intros; rewrite ER; reflexivity). f_equal. generalize (grads k l), (el (st k) idx, adam_aux o k idx). clear.
    induction l as [|z l IH]; intros x; [reflexivity|]. cbn [map fold_left fst snd]. apply IH.
Qed.

End S.
