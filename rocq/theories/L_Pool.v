(** * MaxPooling2D *)
From Verif Require Import Base Scalar Types Spec M_Shape M_Tensor M_Adv M_Act M_Layers M_Reg SpecNN
  L_Index L_Shape L_Bcast L_Tensor L_Reduce L_Tensor2 L_Glue L_Nest L_Matmul L_Axes L_Adv L_AdvR L_Layers L_Conv.

Section S.
Context {T : Type} {S : Scalar T}.

(** Keeping the first largest value seen so far. *)
Definition keep {A} (val : A -> T) (pos : A -> Z * Z) (st : T * Z * Z) (a : A) : T * Z * Z :=
  let '(mx, mh, mw) := st in if s_lt mx (val a) then (val a, fst (pos a), snd (pos a)) else (mx, mh, mw).
Lemma keep_max : forall {A} (P : T -> Prop) (val : A -> T) pos (l : list A) l1 a l2, ordered P ->
  (forall x, In x (l1 ++ a :: l2) -> P (val x)) -> (forall x, In x l -> P (val x)) ->
  (forall x, In x l1 -> s_lt (val x) (val a) = true) -> (forall x, In x (l1 ++ a :: l2) -> s_lt (val a) (val x) = false) ->
  exists b, fold_left (keep val pos) l (val a, fst (pos a), snd (pos a)) = (val b, fst (pos b), snd (pos b)) /\
    exists l1' l2', (l1 ++ a :: l2) ++ l = l1' ++ b :: l2' /\
      (forall x, In x l1' -> s_lt (val x) (val b) = true) /\ (forall x, In x ((l1 ++ a :: l2) ++ l) -> s_lt (val b) (val x) = false).
Proof.
  intros A P val pos l. induction l as [|y l IH]; intros l1 a l2 HO HP1 HP2 HL HM.
  - exists a. split; [reflexivity|]. exists l1, l2. rewrite app_nil_r. auto.
  - pose proof HO as (Hirr & Htr & Hneg). assert (Pa : P (val a)) by (apply HP1; apply in_elt). assert (Py : P (val y)) by (apply HP2; left; auto).
    cbn [fold_left keep]. destruct (s_lt (val a) (val y)) eqn:E.
    + destruct (IH (l1 ++ a :: l2) y [] HO) as (b & Eb & HB).
      * intros x HI. apply in_app_or in HI. destruct HI as [HI|[<-|[]]]; auto.
      * intros x HI. apply HP2. right. auto.
      * intros x HI. specialize (HM x HI). destruct (s_lt (val x) (val y)) eqn:E2; auto.
        assert (X : s_lt (val a) (val y) = false) by (apply (Hneg (val a) (val x) (val y)); auto). congruence.
      * intros x HI. apply in_app_or in HI. destruct HI as [HI|[<-|[]]]; [|apply Hirr; auto].
        destruct (s_lt (val y) (val x)) eqn:E2; auto. rewrite <- (HM x HI). symmetry. apply (Htr (val a) (val y) (val x)); auto.
      * exists b. split; [exact Eb|]. rewrite <- app_assoc in HB. exact HB.
    + destruct (IH l1 a (l2 ++ [y]) HO) as (b & Eb & HB).
      * intros x HI. replace (l1 ++ a :: l2 ++ [y]) with ((l1 ++ a :: l2) ++ [y]) in HI by (rewrite <- app_assoc; reflexivity).
        apply in_app_or in HI. destruct HI as [HI|[<-|[]]]; auto.
      * intros x HI. apply HP2. right. auto.
      * auto.
      * intros x HI. replace (l1 ++ a :: l2 ++ [y]) with ((l1 ++ a :: l2) ++ [y]) in HI by (rewrite <- app_assoc; reflexivity).
        apply in_app_or in HI. destruct HI as [HI|[<-|[]]]; auto.
      * exists b. split; [exact Eb|]. replace ((l1 ++ a :: l2) ++ y :: l) with ((l1 ++ a :: l2 ++ [y]) ++ l) by (rewrite <- !app_assoc; cbn; rewrite <- app_assoc; reflexivity). exact HB.
Qed.
Lemma keep_first_max : forall {A} (P : T -> Prop) (val : A -> T) pos (l : list A) b h w, ordered P -> l <> [] ->
  (forall x, In x l -> P (val x) /\ s_lt b (val x) = true) ->
  exists a, fold_left (keep val pos) l (b, h, w) = (val a, fst (pos a), snd (pos a)) /\ first_max val l a.
Proof.
  intros A P val pos [|a l] b h w HO HN HP; [congruence|]. cbn [fold_left keep]. destruct (HP a (or_introl eq_refl)) as [Pa Ea]. rewrite Ea.
  destruct (keep_max P val pos l [] a [] HO) as (m & Em & HM).
  - intros x [<-|[]]. auto.
  - intros x HI. apply HP. right. auto.
  - intros x [].
  - intros x [<-|[]]. destruct HO as (Hirr & _). apply Hirr. auto.
  - exists m. split; [exact Em|exact HM].
Qed.
Lemma first_max_in : forall {A} (val : A -> T) l a, first_max val l a -> In a l.
Proof. intros A val l a (l1 & l2 & -> & _). apply in_elt. Qed.
Lemma first_max_map : forall {A B} (f : B -> A) (val : A -> T) l b, first_max (fun x => val (f x)) l b -> first_max val (map f l) (f b).
Proof.
  intros A B f val l b (l1 & l2 & -> & H1 & H2). exists (map f l1), (map f l2). split; [rewrite map_app; reflexivity|]. split.
  - intros x HI. apply in_map_iff in HI. destruct HI as (y & <- & HI). auto.
  - intros x HI. apply in_map_iff in HI. destruct HI as (y & <- & HI). auto.
Qed.

Lemma fold_left_map : forall {A B C} (f : A -> B -> A) (g : C -> B) l a, fold_left f (map g l) a = fold_left (fun a c => f a (g c)) l a.
Proof. induction l; simpl; intros; auto. Qed.
Lemma nest_fold : forall {St} ds (f : St -> list Z -> St) body (s : St), Forall (fun d => 0 < d) ds ->
  (forall idx st, in_range ds idx -> body idx st = Ok (f st idx)) -> nest ds body s = Ok (fold_left f (all_indices ds) s).
Proof.
  intros St ds f body s HF HB. rewrite nest_flat by auto. unfold for_. rewrite (foldM_ok_fold _ (fun k st => f st (unravel ds k)) (fun _ => True)); auto.
  - f_equal. unfold all_indices, ztab. rewrite fold_left_map. reflexivity.
  - intros k st HI _. apply In_zrange in HI. split; [apply HB; apply unravel_range; auto|auto].
Qed.

Section Pool.
Variables (l : pool T) (x : tensor T) (n c h w : Z).
Hypotheses (Gx : good x) (Ex : tdims x = [n; c; h; w]) (Hpad : po_pad l = 0) (Hst : 0 < po_stride l) (Hsz : 0 < po_size l) (Hh : po_size l <= h) (Hw : po_size l <= w).
Notation oh := (pool_extent (po_size l) (po_stride l) h).
Notation ow := (pool_extent (po_size l) (po_stride l) w).

Lemma extent_bound : forall d i, po_size l <= d -> 0 <= i < pool_extent (po_size l) (po_stride l) d -> i * po_stride l + po_size l <= d.
Proof. intros d i Hd Hi. unfold pool_extent in Hi. pose proof (Z.mul_div_le (d - po_size l) (po_stride l) Hst). nia. Qed.
Lemma extent_pos : forall d, po_size l <= d -> 0 < pool_extent (po_size l) (po_stride l) d <= d.
Proof.
  intros d Hd. unfold pool_extent. pose proof (Z.div_pos (d - po_size l) (po_stride l)). pose proof (Z.mul_div_le (d - po_size l) (po_stride l) Hst).
  assert ((d - po_size l) / po_stride l <= d - po_size l) by nia. lia.
Qed.
Lemma window_in : forall o k, in_range [n; c; oh; ow] o -> in_range [po_size l; po_size l] k -> in_range (tdims x) (window_pos (po_stride l) o k).
Proof.
  intros o k HO HK. apply in_range_4 in HO. destruct HO as (b & ch & i & j & -> & Hb & Hc & Hi & Hj). apply in_range_2 in HK. destruct HK as (p & q & -> & Hp & Hq).
  pose proof (extent_bound h i Hh Hi). pose proof (extent_bound w j Hw Hj). rewrite Ex. unfold window_pos. cbn [nth]. apply in_range4; nia.
Qed.
Lemma find_max_fold : forall b ch i j, in_range [n; c; oh; ow] [b; ch; i; j] ->
  find_max l x b ch i j = Ok (fold_left (keep (fun k => el x (window_pos (po_stride l) [b; ch; i; j] k)) (fun k => (i * po_stride l + nth 0 k 0, j * po_stride l + nth 1 k 0)))
    (all_indices [po_size l; po_size l]) (s_neg s_inf, 0, 0)).
Proof.
  intros b ch i j HO. pose proof HO as HO'. apply in_range_4 in HO'. destruct HO' as (b' & ch' & i' & j' & E & Hb & Hc & Hi & Hj). injection E as <- <- <- <-.
  pose proof (extent_bound h i Hh Hi) as BH. pose proof (extent_bound w j Hw Hj) as BW.
  destruct (dims4_pos x n c h w Gx Ex) as (Pn & Pc & Ph & Pw & HM). destruct (le_prod4 _ _ _ _ _ Pn Pc Ph Pw HM) as (_ & _ & MH & MW).
  unfold find_max. rewrite Hpad. repeat (rewrite ?Z.sub_0_r; rewrite chk32_ok by (unfold INT_MIN; nia); cbn [bind]). rewrite ?Z.sub_0_r.
  rewrite Ex. change (rd [n; c; h; w] 2) with (Ok h). change (rd [n; c; h; w] 3) with (Ok w). cbn [bind].
  rewrite (Z.min_l (po_size l) (h - i * po_stride l)), (Z.min_l (po_size l) (w - j * po_stride l)) by lia.
  rewrite (for2_nest (po_size l) (po_size l)). apply nest_fold; [apply pos_forall; auto with idx|].
  intros k [[mx mh] mw] HK. pose proof (window_in [b; ch; i; j] k HO HK) as HI. unfold window_pos in HI. cbn [nth] in HI. rewrite t_at_ok by auto. cbn [bind keep fst snd]. reflexivity.
Qed.
Lemma all_indices_nonempty : forall a b, 0 < a -> 0 < b -> all_indices [a; b] <> [].
Proof.
  intros a b Ha Hb E. assert (HI : In [0; 0] (all_indices [a; b])) by (apply In_all_indices; [apply pos_forall; auto with idx|apply in_range2; lia]). rewrite E in HI. exact HI.
Qed.
Hypothesis HC : comparable x.
Lemma find_max_ok : forall o, in_range [n; c; oh; ow] o -> exists p q,
  find_max l x (nth 0 o 0) (nth 1 o 0) (nth 2 o 0) (nth 3 o 0) = Ok (el x [nth 0 o 0; nth 1 o 0; p; q], p, q) /\
  first_max (el x) (window (po_size l) (po_stride l) o) [nth 0 o 0; nth 1 o 0; p; q] /\ in_range (tdims x) [nth 0 o 0; nth 1 o 0; p; q].
Proof.
  intros o HO. pose proof HO as HO'. apply in_range_4 in HO'. destruct HO' as (b & ch & i & j & -> & Hb & Hc & Hi & Hj). cbn [nth].
  rewrite find_max_fold by auto. destruct HC as [HOrd HInf].
  destruct (keep_first_max (elements x) (fun k => el x (window_pos (po_stride l) [b; ch; i; j] k)) (fun k => (i * po_stride l + nth 0 k 0, j * po_stride l + nth 1 k 0))
     (all_indices [po_size l; po_size l]) (s_neg s_inf) 0 0 HOrd) as (k & Ek & HK).
  - apply all_indices_nonempty; auto.
  - intros k HK. apply In_all_indices in HK; [|apply pos_forall; auto with idx].
    assert (HE : elements x (el x (window_pos (po_stride l) [b; ch; i; j] k))) by (exists (window_pos (po_stride l) [b; ch; i; j] k); split; [apply window_in; auto|reflexivity]).
    split; [auto|apply HInf; auto].
  - exists (i * po_stride l + nth 0 k 0), (j * po_stride l + nth 1 k 0). rewrite Ek. split; [reflexivity|]. split.
    + apply (first_max_map (window_pos (po_stride l) [b; ch; i; j]) (el x)) in HK. exact HK.
    + apply (window_in [b; ch; i; j] k); auto. apply first_max_in in HK. apply In_all_indices in HK; [auto|apply pos_forall; auto with idx].
Qed.
(** The winning position as a function. *)
Definition winner (o : list Z) : list Z :=
  match find_max l x (nth 0 o 0) (nth 1 o 0) (nth 2 o 0) (nth 3 o 0) with Ok (_, p, q) => [nth 0 o 0; nth 1 o 0; p; q] | _ => [] end.
Lemma winner_ok : forall o, in_range [n; c; oh; ow] o ->
  find_max l x (nth 0 o 0) (nth 1 o 0) (nth 2 o 0) (nth 3 o 0) = Ok (el x (winner o), nth 2 (winner o) 0, nth 3 (winner o) 0) /\
  first_max (el x) (window (po_size l) (po_stride l) o) (winner o) /\ in_range (tdims x) (winner o) /\
  winner o = [nth 0 o 0; nth 1 o 0; nth 2 (winner o) 0; nth 3 (winner o) 0].
Proof.
  intros o HO. destruct (find_max_ok o HO) as (p & q & E & HF & HI). unfold winner. rewrite E. cbn [nth]. auto.
Qed.

Lemma pool_out_ok : forall d, po_size l <= d <= INT_MAX -> pool_out l d = Ok (pool_extent (po_size l) (po_stride l) d).
Proof.
  intros d Hd. unfold pool_out. rewrite chk32_ok by (unfold INT_MIN; lia). cbn [bind]. destruct (Z.eqb_spec (po_stride l) 0); [lia|].
  rewrite Z.quot_div_nonneg by lia. destruct (extent_pos d) as [X Y]; [lia|]. unfold pool_extent in *.
  rewrite chk32_ok by (unfold INT_MIN; lia). cbn [bind]. apply chk32_ok. unfold INT_MIN. lia.
Qed.
Lemma pool_sizes : 0 < n /\ 0 < c /\ 0 < oh /\ 0 < ow /\ n * (c * (oh * ow)) <= INT_MAX /\ h <= INT_MAX /\ w <= INT_MAX.
Proof.
  destruct (dims4_pos x n c h w Gx Ex) as (Pn & Pc & Ph & Pw & HM). destruct (le_prod4 _ _ _ _ _ Pn Pc Ph Pw HM) as (_ & _ & MH & MW).
  destruct (extent_pos h Hh) as [A1 A2]. destruct (extent_pos w Hw) as [B1 B2].
  assert (oh * ow <= h * w) by nia. assert (c * (oh * ow) <= c * (h * w)) by nia. assert (n * (c * (oh * ow)) <= n * (c * (h * w))) by nia. repeat split; auto; lia.
Qed.
Lemma pool_forward_ok : pool_forward l x = (mkPool (po_size l) (po_stride l) (po_pad l) (Some x), Ok (tensor_of [n; c; oh; ow] (fun o => el x (winner o)))).
Proof.
  destruct pool_sizes as (Pn & Pc & Poh & Pow & HM & MH & MW).
  unfold pool_forward, rank. fold (tdims x). rewrite Ex. change (Zlen [n; c; h; w] =? 4) with true. cbn [negb]. f_equal.
  change (rd [n; c; h; w] 0) with (Ok n). change (rd [n; c; h; w] 1) with (Ok c). change (rd [n; c; h; w] 2) with (Ok h). change (rd [n; c; h; w] 3) with (Ok w). cbn [bind].
  rewrite !pool_out_ok by lia. cbn [bind]. rewrite new_shape_ok_int by (auto with idx; simpl; lia). cbn [bind].
  rewrite (for4_nest n c oh ow). apply nest_set; [apply good_new; [auto with idx|simpl; lia]|reflexivity|].
  intros o out HO Gout Eout. destruct (winner_ok o HO) as (E & _). rewrite E. cbn [bind].
  pose proof HO as HO'. apply in_range_4 in HO'. destruct HO' as (b & ch & i & j & -> & _). cbn [nth]. apply (set_el_dims out [n; c; oh; ow]); auto.
Qed.
Lemma pool_backward_ok : forall l' (g : tensor T), po_size l' = po_size l -> po_stride l' = po_stride l -> po_pad l' = po_pad l -> po_in l' = Some x -> good g -> tdims g = [n; c; oh; ow] ->
  pool_backward l' g = Ok (tensor_of (tdims x) (fun p => fold_left s_add (map (el g) (filter (fun o => idx_eqb (winner o) p) (all_indices (tdims g)))) zero)).
Proof.
  intros l' g E1 E2 E3 EI Gg Eg. destruct pool_sizes as (Pn & Pc & Poh & Pow & HM & MH & MW).
  assert (EF : forall b k i j, find_max l' x b k i j = find_max l x b k i j) by (intros; unfold find_max; rewrite E1, E2, E3; reflexivity).
  unfold pool_backward. rewrite EI. rewrite Eg. assert (R0 : rd (tdims x) 0 = Ok n) by (rewrite Ex; reflexivity). assert (R1 : rd (tdims x) 1 = Ok c) by (rewrite Ex; reflexivity). rewrite R0, R1.
  change (rd [n; c; oh; ow] 2) with (Ok oh). change (rd [n; c; oh; ow] 3) with (Ok ow). cbn [bind].
  rewrite (for4_nest n c oh ow). rewrite (good_shape x) by auto.
  rewrite (nest_scatter [n; c; oh; ow] winner (el g)).
  - f_equal. apply tensor_of_ext; [apply good_dims; auto|]. intros p Hp. rewrite el_new by auto. reflexivity.
  - apply pos_forall; auto with idx.
  - apply good_new; [apply good_pos; auto|apply good_max; auto].
  - intros o HO. destruct (winner_ok o HO) as (_ & _ & HI & _). exact HI.
  - intros o t HO Gt Et. destruct (winner_ok o HO) as (E & _ & HI & EW). rewrite EF, E. cbn [bind].
    pose proof HO as HO'. apply in_range_4 in HO'. destruct HO' as (b & ch & i & j & -> & _). cbn [nth] in *.
    rewrite t_at_ok by (auto; rewrite Eg; auto). cbn [bind]. rewrite <- EW. apply t_at_add_ok; auto. rewrite Et. exact HI.
Qed.
End Pool.

Lemma pool_forward_max : forall (l : pool T) (x : tensor T) n c h w, good x -> tdims x = [n; c; h; w] -> comparable x ->
  po_pad l = 0 -> 0 < po_stride l -> 0 < po_size l -> po_size l <= h -> po_size l <= w ->
  exists y, pool_forward l x = (mkPool (po_size l) (po_stride l) (po_pad l) (Some x), Ok y) /\ good y /\
    tdims y = [n; c; pool_extent (po_size l) (po_stride l) h; pool_extent (po_size l) (po_stride l) w] /\
    forall o, in_range (tdims y) o ->
      Forall (in_range (tdims x)) (window (po_size l) (po_stride l) o) /\
      exists p, first_max (el x) (window (po_size l) (po_stride l) o) p /\ el y o = el x p.
Proof.
  intros l x n c h w Gx Ex HC Hpad Hst Hsz Hh Hw. destruct (pool_sizes l x n c h w Gx Ex Hst Hsz Hh Hw) as (Pn & Pc & Poh & Pow & HM & MH & MW).
  eexists. split; [apply (pool_forward_ok l x n c h w); auto|]. split; [apply good_4; auto|]. split; [reflexivity|].
  intros o HO. change (in_range [n; c; pool_extent (po_size l) (po_stride l) h; pool_extent (po_size l) (po_stride l) w] o) in HO. split.
  - apply Forall_forall. intros p HP. apply in_map_iff in HP. destruct HP as (k & <- & HK). apply In_all_indices in HK; [|apply pos_forall; auto with idx].
    apply (window_in l x n c h w); auto.
  - exists (winner l x o). destruct (winner_ok l x n c h w Gx Ex Hpad Hst Hsz Hh Hw HC o HO) as (_ & HF & _). split; [auto|]. rewrite el_tensor_of by auto. reflexivity. 
Qed.
Lemma pool_backward_routes : forall (l : pool T) (x g : tensor T) n c h w, good x -> tdims x = [n; c; h; w] -> comparable x ->
  po_pad l = 0 -> 0 < po_stride l -> 0 < po_size l -> po_size l <= h -> po_size l <= w ->
  good g -> tdims g = [n; c; pool_extent (po_size l) (po_stride l) h; pool_extent (po_size l) (po_stride l) w] ->
  exists gx win, pool_backward (fst (pool_forward l x)) g = Ok gx /\ good gx /\ tdims gx = tdims x /\
    (forall o, in_range (tdims g) o -> first_max (el x) (window (po_size l) (po_stride l) o) (win o) /\ in_range (tdims x) (win o)) /\
    forall p, in_range (tdims x) p -> el gx p = fold_left s_add (map (el g) (filter (fun o => idx_eqb (win o) p) (all_indices (tdims g)))) zero.
Proof.
  intros l x g n c h w Gx Ex HC Hpad Hst Hsz Hh Hw Gg Eg. rewrite (pool_forward_ok l x n c h w) by auto. cbn [fst].
  eexists; exists (winner l x). split; [apply (pool_backward_ok l x n c h w); auto|]. split; [apply good_tensor_of; [apply good_pos; auto|apply good_max; auto]|]. split; [reflexivity|]. split.
  - intros o HO. rewrite Eg in HO. destruct (winner_ok l x n c h w Gx Ex Hpad Hst Hsz Hh Hw HC o HO) as (_ & HF & HI & _). auto.
  - intros p Hp. rewrite el_tensor_of by auto. reflexivity.
Qed.

Lemma for_first_throw : forall {St} m (body : Z -> St -> outcome St) s e, 0 < m -> body 0 s = Throw e -> for_ 0 m body s = Throw e.
Proof. intros. unfold for_. rewrite zrange_cons by lia. cbn [foldM]. rewrite H0. reflexivity. Qed.
(** With padding the first window starts outside the image. *)
Lemma pool_padding_throws : forall (l : pool T) (x : tensor T) n c h w, good x -> tdims x = [n; c; h; w] ->
  0 < po_pad l <= INT_MAX -> 0 < po_stride l -> 0 < po_size l -> po_size l <= h -> po_size l <= w ->
  snd (pool_forward l x) = Throw OutOfRange.
Proof.
  intros l x n c h w Gx Ex Hpad Hst Hsz Hh Hw. destruct (pool_sizes l x n c h w Gx Ex Hst Hsz Hh Hw) as (Pn & Pc & Poh & Pow & HM & MH & MW).
  unfold pool_forward, rank. fold (tdims x). rewrite Ex. change (Zlen [n; c; h; w] =? 4) with true. cbn [negb snd].
  change (rd [n; c; h; w] 0) with (Ok n). change (rd [n; c; h; w] 1) with (Ok c). change (rd [n; c; h; w] 2) with (Ok h). change (rd [n; c; h; w] 3) with (Ok w). cbn [bind].
  rewrite !(pool_out_ok l Hst Hsz) by lia. cbn [bind]. rewrite new_shape_ok_int by (auto with idx; simpl; lia). cbn [bind].
  repeat (apply for_first_throw; [lia|]).
  assert (EF : find_max l x 0 0 0 0 = Throw OutOfRange).
  { unfold find_max. rewrite !Z.mul_0_l. rewrite (chk32_ok 0) by (vm_compute; split; discriminate). cbn [bind]. rewrite chk32_ok by (unfold INT_MIN, INT_MAX in *; lia). cbn [bind].
    rewrite Ex. change (rd [n; c; h; w] 2) with (Ok h). change (rd [n; c; h; w] 3) with (Ok w). cbn [bind].
    apply for_first_throw; [lia|]. apply for_first_throw; [lia|].
    rewrite t_at_fail; [rewrite Ex; reflexivity|auto|]. rewrite Ex. intros HI. apply in_range_4 in HI. destruct HI as (b & ch & i & j & E & Hb & Hc & Hi & Hj). injection E as <- <- <- <-. lia. }
  rewrite EF. reflexivity.
Qed.
End S.
