(** * Text forms: lemmas for C91 *)
From Coq Require Import ZArith Ascii String DecimalString DecimalZ Decimal DecimalFacts.
From Verif Require Import Base Scalar Types Spec TextBase M_Shape M_Text SpecText L_Index L_Shape L_Tensor.
Local Open Scope string_scope.
Local Open Scope Z_scope.
Local Open Scope list_scope.
Local Notation chars := list_ascii_of_string.

Lemma chars_app : forall a b, chars (a ++ b)%string = chars a ++ chars b.
Proof. induction a as [|c a IH]; intros b; [reflexivity|]. cbn. rewrite IH. reflexivity. Qed.
Lemma chars_inj : forall a b, chars a = chars b -> a = b.
Proof. intros a b E. rewrite <- (string_of_list_ascii_of_string a), <- (string_of_list_ascii_of_string b), E. reflexivity. Qed.
Lemma sapp_assoc : forall a b c : string, ((a ++ b) ++ c)%string = (a ++ (b ++ c))%string.
Proof. induction a as [|x a IH]; intros; [reflexivity|]. cbn. rewrite IH. reflexivity. Qed.
Lemma sapp_nil : forall a : string, (a ++ "")%string = a.
Proof. induction a as [|x a IH]; [reflexivity|]. cbn. rewrite IH. reflexivity. Qed.
Lemma sapp_cancel_r : forall a b c : string, (a ++ c)%string = (b ++ c)%string -> a = b.
Proof. intros a b c E. apply chars_inj. apply (f_equal chars) in E. rewrite !chars_app in E. eapply app_inv_tail; exact E. Qed.
Lemma sapp_cancel_l : forall a b c : string, (c ++ a)%string = (c ++ b)%string -> a = b.
Proof. intros a b c E. apply chars_inj. apply (f_equal chars) in E. rewrite !chars_app in E. eapply app_inv_head; exact E. Qed.

(** ** Joining *)
Definition comma : ascii := ",".
Fixpoint inter (l : list (list ascii)) : list ascii := match l with [] => [] | [a] => a | a :: r => a ++ chars ", " ++ inter r end.
Lemma concat_inter : forall l, chars (String.concat ", " l) = inter (map chars l).
Proof. induction l as [|a [|b l] IH]; [reflexivity|reflexivity|]. change (String.concat ", " (a :: b :: l)) with (a ++ ", " ++ String.concat ", " (b :: l))%string. rewrite !chars_app, IH. reflexivity. Qed.
Lemma split_at : forall (stop : ascii) (a b u v : list ascii) x y, ~ In comma a -> ~ In stop a -> ~ In comma b -> ~ In stop b -> x = comma \/ x = stop -> y = comma \/ y = stop ->
  a ++ x :: u = b ++ y :: v -> a = b /\ x = y /\ u = v.
Proof.
  intros stop a. induction a as [|c a IH]; intros b u v x y A1 A2 B1 B2 HX HY E; destruct b as [|d b]; cbn [app] in E.
  - injection E as -> ->. auto.
  - injection E as -> _. exfalso. destruct HX as [->| ->]; [apply B1|apply B2]; left; auto.
  - injection E as <- _. exfalso. destruct HY as [->| ->]; [apply A1|apply A2]; left; auto.
  - injection E as -> E. destruct (IH b u v x y) as (-> & -> & ->); auto; intros H; first [apply A1; right; exact H|apply A2; right; exact H|apply B1; right; exact H|apply B2; right; exact H].
Qed.
Definition plain (stop : ascii) (e : list ascii) : Prop := e <> [] /\ ~ In comma e /\ ~ In stop e.
Lemma inter_inj : forall stop, stop <> comma -> forall l l' r r', Forall (plain stop) l -> Forall (plain stop) l' -> inter l ++ stop :: r = inter l' ++ stop :: r' -> l = l' /\ r = r'.
Proof.
  intros stop HS. induction l as [|a l IH]; intros l' r r' HF HF' E.
  - destruct l' as [|b l']; [cbn in E; injection E; auto|]. inversion HF' as [|? ? (N & _ & HB) _]; subst. destruct b as [|c b]; [congruence|]. exfalso. apply HB. left.
    destruct l'; cbn in E; injection E; auto.
  - destruct l' as [|b l'].
    { inversion HF as [|? ? (N & _ & HA) _]; subst. destruct a as [|c a]; [congruence|]. exfalso. apply HA. left. destruct l; cbn in E; injection E; auto. }
    inversion HF as [|? ? (NA & A1 & A2) HF1]; subst. inversion HF' as [|? ? (NB & B1 & B2) HF1']; subst.
    assert (EX : forall e m q, exists x u, (x = comma \/ x = stop) /\ inter (e :: m) ++ stop :: q = e ++ x :: u /\ (x = stop -> stop <> comma -> m = [] /\ u = q) /\ (x = comma -> stop <> comma -> exists m0 m1, m = m0 :: m1 /\ u = (" "%char :: inter m ++ stop :: q))).
    { intros e [|m0 m] q; [exists stop, q; split; [auto|]; split; [reflexivity|]; split; [auto|]; intros H1 H2; congruence|].
      exists comma, (" "%char :: inter (m0 :: m) ++ stop :: q). split; [auto|]. split; [cbn [inter]; rewrite <- !app_assoc; reflexivity|]. split; [intros H1 H2; congruence|]. intros _ _. eauto. }
    destruct (EX a l r) as (x & u & HX & E1 & X1 & X2). destruct (EX b l' r') as (y & v & HY & E2 & Y1 & Y2). rewrite E1, E2 in E.
    destruct (split_at stop a b u v x y A1 A2 B1 B2 HX HY E) as (-> & -> & ->). destruct HY as [->| ->].
    + destruct (X2 eq_refl HS) as (m0 & m1 & EM & EU). destruct (Y2 eq_refl HS) as (m0' & m1' & EM' & EU'). rewrite EU in EU'. injection EU' as EU'.
      destruct (IH l' r r' HF1 HF1' EU') as (-> & ->). auto.
    + destruct (X1 eq_refl HS) as (-> & ->). destruct (Y1 eq_refl HS) as (-> & ->). auto.
Qed.
Lemma map_inj : forall {A B} (f : A -> B) l l', (forall x y, f x = f y -> x = y) -> map f l = map f l' -> l = l'.
Proof. intros A B f l. induction l as [|a l IH]; intros [|b l'] H E; try discriminate; [auto|]. injection E as E1 E2. f_equal; auto. Qed.
Lemma join_inj : forall (stop : ascii), stop <> comma -> forall l l' r r', Forall (fun e => plain stop (chars e)) l -> Forall (fun e => plain stop (chars e)) l' ->
  (String.concat ", " l ++ String stop r)%string = (String.concat ", " l' ++ String stop r')%string -> l = l' /\ r = r'.
Proof.
  intros stop HS l l' r r' HF HF' E. apply (f_equal chars) in E. rewrite !chars_app, !concat_inter in E. cbn [list_ascii_of_string] in E.
  destruct (inter_inj stop HS _ _ _ _ (proj2 (Forall_map _ _ _) HF) (proj2 (Forall_map _ _ _) HF') E) as (E1 & E2). split; [|apply chars_inj; auto]. eapply map_inj; [|exact E1]. apply chars_inj.
Qed.

(** ** Integers *)
Lemma show_int_inj : forall a b, show_int a = show_int b -> a = b.
Proof.
  intros a b E. unfold show_int in E. apply DecimalZ.to_int_inj.
  assert (N : forall z, Z.to_int z <> Pos Nil /\ Z.to_int z <> Neg Nil).
  { intros [|p|p]; split; cbn; try discriminate; intros H; injection H as H; pose proof (DecimalPos.Unsigned.to_uint_nonnil p); contradiction. }
  pose proof (NilZero.isi _ (proj1 (N a)) (proj2 (N a))) as Ha. pose proof (NilZero.isi _ (proj1 (N b)) (proj2 (N b))) as Hb. rewrite E in Ha. congruence.
Qed.
Definition digit_or_minus (c : ascii) : Prop := In c (chars "-0123456789").
Lemma uint_digits : forall d, Forall digit_or_minus (chars (NilEmpty.string_of_uint d)).
Proof. induction d; cbn; constructor; auto; unfold digit_or_minus; cbn; auto 15. Qed.
Lemma show_int_chars : forall z, chars (show_int z) <> [] /\ Forall digit_or_minus (chars (show_int z)).
Proof.
  assert (U : forall d, chars (NilZero.string_of_uint d) <> [] /\ Forall digit_or_minus (chars (NilZero.string_of_uint d))).
  { intros d. destruct d; [split; [discriminate|constructor; [unfold digit_or_minus; cbn; auto|constructor]]|..]; (split; [discriminate|unfold NilZero.string_of_uint; apply uint_digits]). }
  intros z. unfold show_int. destruct (Z.to_int z) as [d|d]; cbn [NilZero.string_of_int]; [apply U|]. cbn. split; [discriminate|]. constructor; [unfold digit_or_minus; cbn; auto|apply U].
Qed.
Lemma show_int_plain : forall stop z, ~ digit_or_minus stop -> plain stop (chars (show_int z)).
Proof.
  intros stop z HS. destruct (show_int_chars z) as (N & F). rewrite Forall_forall in F. split; [auto|]. split; intros H; apply F in H; [|auto].
  unfold digit_or_minus, comma in H. cbn in H. repeat (destruct H as [H|H]; [discriminate|]). destruct H.
Qed.

(** ** Shapes *)
Lemma concat_snoc : forall l a, l <> [] -> String.concat ", " (l ++ [a]) = (String.concat ", " l ++ ", " ++ a)%string.
Proof.
  induction l as [|x [|y l] IH]; intros a H; [congruence|reflexivity|]. change ((x :: y :: l) ++ [a]) with (x :: (y :: l) ++ [a]).
  change (String.concat ", " (x :: (y :: l) ++ [a])) with (x ++ ", " ++ String.concat ", " ((y :: l) ++ [a]))%string. rewrite IH by discriminate.
  change (String.concat ", " (x :: y :: l)) with (x ++ ", " ++ String.concat ", " (y :: l))%string. rewrite !sapp_assoc. reflexivity.
Qed.
Lemma firstn_snoc : forall {A} (d : A) l i, 0 <= i < Zlen l -> firstn (Z.to_nat (i + 1)) l = firstn (Z.to_nat i) l ++ [znth d l i].
Proof.
  intros A d l i Hi. replace (Z.to_nat (i + 1)) with (Datatypes.S (Z.to_nat i)) by lia. unfold Zlen in Hi. assert (H : (Z.to_nat i < length l)%nat) by lia. unfold znth. revert H. generalize (Z.to_nat i). clear.
  induction l as [|a l IH]; intros n H; [cbn in H; lia|]. destruct n as [|n]; [reflexivity|]. cbn [firstn app nth]. rewrite <- IH by (cbn in H; lia). reflexivity.
Qed.
Lemma shape_text_ok : forall s, Zlen (dims s) <= two64 -> shape_text s = Ok (dims_text (dims s)).
Proof.
  intros s HL. unfold shape_text, dims_text, listed. set (ds := dims s) in *. set (n := Zlen ds) in *. pose proof (Zlen_nonneg ds) as H0. fold n in H0.
  set (P := fun (i : Z) (os : string) => os = ("(" ++ String.concat ", " (map show_int (firstn (Z.to_nat i) ds)) ++ (if (0 <? i)%Z && (i <? n)%Z then ", " else ""))%string).
  match goal with |- bind (for_ 0 n ?body ?x) _ = _ => destruct (for_inv P 0 n body x) as (os & E & HP) end; [lia|reflexivity| |].
  - intros i os Hi HP. rewrite (rd_ok 0) by (fold n; lia). cbn [bind]. eexists. split; [reflexivity|]. unfold P in *. subst os.
    replace (u64 (n - 1)) with (n - 1) by (symmetry; apply u64_id; lia). rewrite (firstn_snoc 0) by (fold n; lia). rewrite map_app. cbn [map].
    set (L := map show_int (firstn (Z.to_nat i) ds)).
    assert (EL : (String.concat ", " L ++ (if (0 <? i)%Z && (i <? n)%Z then ", " else "") ++ show_int (znth 0 ds i))%string = String.concat ", " (L ++ [show_int (znth 0 ds i)])).
    { destruct (Z.ltb_spec 0 i) as [H|H].
      - rewrite concat_snoc. { destruct (Z.ltb_spec i n); [reflexivity|lia]. } unfold L. intros HN. apply (f_equal (@length _)) in HN. rewrite map_length, firstn_length in HN. unfold n, Zlen in Hi. cbn in HN. lia.
      - assert (i = 0) by lia. subst i. reflexivity. }
    rewrite <- EL. destruct (Z.ltb_spec 0 (i + 1)); [|lia]. cbn [andb]. destruct (Z.eqb_spec i (n - 1)) as [EN|EN]; cbn [negb].
    + destruct (Z.ltb_spec (i + 1) n); [lia|]. rewrite ?sapp_assoc, ?sapp_nil. reflexivity.
    + destruct (Z.ltb_spec (i + 1) n); [|lia]. rewrite ?sapp_assoc. reflexivity.
  - rewrite E. cbn [bind]. rewrite HP. rewrite Z.ltb_irrefl, andb_false_r, sapp_nil. rewrite firstn_all2 by (unfold n, Zlen; lia). rewrite ?sapp_assoc. reflexivity.
Qed.
Lemma dims_text_prefix : forall a b r r', (dims_text a ++ r)%string = (dims_text b ++ r')%string -> a = b /\ r = r'.
Proof.
  intros a b r r' E. unfold dims_text, listed in E. rewrite !sapp_assoc in E. apply sapp_cancel_l in E. cbn [String.append] in E.
  assert (F : forall l, Forall (fun e => plain ")" (chars e)) (map show_int l)).
  { intros l. apply Forall_map. apply Forall_forall. intros z _. apply show_int_plain. unfold digit_or_minus. cbn. intros H. repeat (destruct H as [H|H]; [discriminate|]). destruct H. }
  destruct (join_inj ")" ltac:(discriminate) _ _ _ _ (F a) (F b) E) as (E1 & E2). split; [|auto]. eapply map_inj; [|exact E1]. apply show_int_inj.
Qed.
Lemma shape_text_inj : forall s s', Zlen (dims s) <= two64 -> Zlen (dims s') <= two64 -> shape_text s = shape_text s' -> dims s = dims s'.
Proof.
  intros s s' H H' E. rewrite !shape_text_ok in E by auto. assert (E0 : dims_text (dims s) = dims_text (dims s')) by congruence. apply (dims_text_prefix (dims s) (dims s') "" ""). rewrite !sapp_nil. exact E0.
Qed.

(** ** Tensors *)
Section S.
Context {T : Type} {S : Scalar T}.
Variables (show : T -> string) (type_name : string).
Lemma elems_ok : forall (t : tensor T) hi os, 0 <= hi <= Zlen (tdata t) -> elems_text show t hi os = Ok (os ++ String.concat ", " (map show (firstn (Z.to_nat hi) (tdata t))))%string.
Proof.
  intros t hi os Hhi. unfold elems_text. set (l := tdata t) in *.
  set (P := fun (i : Z) (o : string) => o = (os ++ String.concat ", " (map show (firstn (Z.to_nat i) l)))%string).
  match goal with |- for_ 0 hi ?body ?x = _ => destruct (for_inv P 0 hi body x) as (o & E & HP) end; [lia|unfold P; cbn; rewrite sapp_nil; reflexivity| |].
  - intros i o Hi HP. rewrite (rd_ok zero) by lia. cbn [bind]. eexists. split; [reflexivity|]. unfold P in *. subst o. rewrite (firstn_snoc zero) by lia. rewrite map_app. cbn [map].
    destruct (Z.ltb_spec 0 i) as [H|H].
    + rewrite concat_snoc. { rewrite ?sapp_assoc. reflexivity. } intros HN. apply (f_equal (@length _)) in HN. rewrite map_length, firstn_length in HN. unfold Zlen in Hhi. cbn in HN. lia.
    + assert (i = 0) by lia. subst i. cbn. rewrite sapp_nil. reflexivity.
  - rewrite E, HP. reflexivity.
Qed.
Lemma data_text_ok : forall t : tensor T, good t -> data_text show t = Ok (values_text show (tdata t)).
Proof.
  intros t G. pose proof (good_size t G) as ES. pose proof (good_len t G) as EL. unfold data_text, values_text, listed. rewrite elems_ok by (pose proof (Zlen_nonneg (tdata t)); lia). cbn [bind].
  rewrite firstn_all2 by (unfold Zlen in EL; lia). rewrite sapp_assoc. reflexivity.
Qed.
Lemma unbroken_plain : unbroken show -> forall l, Forall (fun e => plain "]" (chars e)) (map show l).
Proof.
  intros U l. apply Forall_map, Forall_forall. intros v _. destruct (U v) as (N & C & B). split; [|split; auto]. intros H. apply N. apply chars_inj. exact H.
Qed.
Lemma values_inj : unbroken show -> forall l l' r r', (listed (map show l) ++ "]" ++ r)%string = (listed (map show l') ++ "]" ++ r')%string -> map show l = map show l' /\ r = r'.
Proof. intros U l l' r r' E. apply (join_inj "]" ltac:(discriminate)); auto using unbroken_plain. Qed.
Lemma data_text_inj : unbroken show -> (forall x y, show x = show y -> x = y) -> forall a b : tensor T, good a -> good b -> data_text show a = data_text show b -> tdata a = tdata b.
Proof.
  intros U HI a b GA GB E. rewrite !data_text_ok in E by auto. unfold values_text in E. assert (E0 : (listed (map show (tdata a)) ++ "]" ++ "")%string = (listed (map show (tdata b)) ++ "]" ++ "")%string) by (cbn [String.append] in *; congruence).
  apply values_inj in E0; [|auto]. eapply map_inj; [exact HI|]. apply E0.
Qed.
Lemma detail_ok : forall t : tensor T, good t -> Zlen (tdims t) <= two64 -> tensor_detail show type_name t = Ok (detail_text show type_name (tdims t) (tdata t)).
Proof.
  intros t G HL. pose proof (good_size t G) as ES. pose proof (good_len t G) as EL. pose proof (Zlen_nonneg (tdata t)) as H0. unfold tensor_detail, data_detail. rewrite shape_text_ok by exact HL. cbn [bind].
  rewrite elems_ok by lia. cbn [bind]. unfold detail_text, listed. rewrite ES, <- EL.
  replace (firstn (Z.to_nat (Z.min (Zlen (tdata t)) 10)) (tdata t)) with (firstn 10 (tdata t)).
  2:{ destruct (Z.min_spec (Zlen (tdata t)) 10) as [[H ->]|[H ->]]; [|reflexivity]. unfold Zlen in *. rewrite !firstn_all2 by lia. reflexivity. }
  fold (tdims t). destruct (10 <? Zlen (tdata t)); rewrite ?sapp_assoc; reflexivity.
Qed.
Lemma detail_eq : unbroken show -> forall a b : tensor T, good a -> good b -> Zlen (tdims a) <= two64 -> Zlen (tdims b) <= two64 ->
  (tensor_detail show type_name a = tensor_detail show type_name b <-> tdims a = tdims b /\ map show (firstn 10 (tdata a)) = map show (firstn 10 (tdata b))).
Proof.
  intros U a b GA GB HA HB. rewrite !detail_ok by auto. pose proof (good_len a GA) as LA. pose proof (good_len b GB) as LB. split.
  - intros E. assert (E0 : detail_text show type_name (tdims a) (tdata a) = detail_text show type_name (tdims b) (tdata b)) by congruence. unfold detail_text in E0.
    do 7 (apply sapp_cancel_l in E0). apply dims_text_prefix in E0. destruct E0 as [ED E0]. split; [auto|]. do 2 apply sapp_cancel_l in E0.
    rewrite LA, LB, ED in E0. rewrite <- !sapp_assoc in E0. do 3 apply sapp_cancel_r in E0.
    apply (values_inj U _ _ "" ""). rewrite E0. reflexivity.
  - intros [ED EV]. f_equal. unfold detail_text. rewrite LA, LB, ED, EV. reflexivity.
Qed.
End S.

Lemma show_int_unbroken : unbroken show_int.
Proof.
  intros z. destruct (show_int_plain "]" z) as (N & C & B). { unfold digit_or_minus. cbn. intros H. repeat (destruct H as [H|H]; [discriminate|]). destruct H. }
  split; [|split; auto]. intros H. apply N. rewrite H. reflexivity.
Qed.
Lemma int_text_inj : forall a b : tensor Z, good a -> good b -> data_text show_int a = data_text show_int b -> tdata a = tdata b.
Proof. apply data_text_inj; [apply show_int_unbroken|apply show_int_inj]. Qed.
