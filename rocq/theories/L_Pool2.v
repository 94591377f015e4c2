(** * MaxPooling2D on any values: both passes succeed, the gradient goes to some position of the image *)
From Verif Require Import Base Scalar Types Spec M_Shape M_Tensor M_Adv M_Act M_Layers M_Reg SpecNN
  L_Index L_Shape L_Bcast L_Tensor L_Reduce L_Tensor2 L_Glue L_Nest L_Matmul L_Axes L_Adv L_AdvR L_Layers L_Conv L_Pool.

Section S.
Context {T : Type} {S : Scalar T}.
Lemma keep_inv : forall {A} (val : A -> T) pos (P : Z * Z -> Prop) (l : list A) v h w, P (h, w) -> (forall a, In a l -> P (pos a)) ->
  exists v' h' w', fold_left (keep val pos) l (v, h, w) = (v', h', w') /\ P (h', w').
Proof.
  intros A val pos P l. induction l as [|a l IH]; intros v h w HP HA; [exists v, h, w; auto|]. cbn [fold_left keep]. destruct (s_lt v (val a)).
  - apply IH; [|intros; apply HA; right; auto]. rewrite <- surjective_pairing. apply HA. left. auto.
  - apply IH; auto. intros; apply HA; right; auto.
Qed.
Section Pool.
Variables (l : pool T) (x : tensor T) (n c h w : Z).
Hypotheses (Gx : good x) (Ex : tdims x = [n; c; h; w]) (Hpad : po_pad l = 0) (Hst : 0 < po_stride l) (Hsz : 0 < po_size l) (Hh : po_size l <= h) (Hw : po_size l <= w).
Notation oh := (pool_extent (po_size l) (po_stride l) h).
Notation ow := (pool_extent (po_size l) (po_stride l) w).
Lemma find_max_any : forall o, in_range [n; c; oh; ow] o -> exists v p q,
  find_max l x (nth 0 o 0) (nth 1 o 0) (nth 2 o 0) (nth 3 o 0) = Ok (v, p, q) /\ in_range (tdims x) [nth 0 o 0; nth 1 o 0; p; q].
Proof.
  intros o HO. pose proof HO as HO'. apply in_range_4 in HO'. destruct HO' as (b & ch & i & j & -> & Hb & Hc & Hi & Hj). cbn [nth].
  rewrite (find_max_fold l x n c h w) by auto.
  destruct (keep_inv (fun k => el x (window_pos (po_stride l) [b; ch; i; j] k)) (fun k => (i * po_stride l + nth 0 k 0, j * po_stride l + nth 1 k 0))
    (fun p => in_range (tdims x) [b; ch; fst p; snd p]) (all_indices [po_size l; po_size l]) (s_neg s_inf) 0 0) as (v & p & q & E & HP).
  - rewrite Ex. apply in_range4; cbn [fst snd]; lia.
  - intros k HK. apply In_all_indices in HK; [|apply pos_forall; auto with idx]. exact (window_in l x n c h w Ex Hst Hsz Hh Hw [b; ch; i; j] k HO HK).
  - rewrite E. eauto.
Qed.
Definition target (o : list Z) : list Z :=
  match find_max l x (nth 0 o 0) (nth 1 o 0) (nth 2 o 0) (nth 3 o 0) with Ok (_, p, q) => [nth 0 o 0; nth 1 o 0; p; q] | _ => [] end.
Definition value (o : list Z) : T := match find_max l x (nth 0 o 0) (nth 1 o 0) (nth 2 o 0) (nth 3 o 0) with Ok (v, _, _) => v | _ => zero end.
Lemma target_ok : forall o, in_range [n; c; oh; ow] o ->
  find_max l x (nth 0 o 0) (nth 1 o 0) (nth 2 o 0) (nth 3 o 0) = Ok (value o, nth 2 (target o) 0, nth 3 (target o) 0) /\
  in_range (tdims x) (target o) /\ target o = [nth 0 o 0; nth 1 o 0; nth 2 (target o) 0; nth 3 (target o) 0].
Proof. intros o HO. destruct (find_max_any o HO) as (v & p & q & E & HI). unfold target, value. rewrite E. cbn [nth]. auto. Qed.
Lemma pool_forward_any : pool_forward l x = (mkPool (po_size l) (po_stride l) (po_pad l) (Some x), Ok (tensor_of [n; c; oh; ow] value)).
Proof.
  destruct (pool_sizes l x n c h w Gx Ex Hst Hsz Hh Hw) as (Pn & Pc & Poh & Pow & HM & MH & MW).
  unfold pool_forward, rank. fold (tdims x). rewrite Ex. change (Zlen [n; c; h; w] =? 4) with true. cbn [negb]. f_equal.
  change (rd [n; c; h; w] 0) with (Ok n). change (rd [n; c; h; w] 1) with (Ok c). change (rd [n; c; h; w] 2) with (Ok h). change (rd [n; c; h; w] 3) with (Ok w). cbn [bind].
  rewrite !pool_out_ok by lia. cbn [bind]. rewrite new_shape_ok_int by (auto with idx; simpl; lia). cbn [bind].
  rewrite (for4_nest n c oh ow). apply nest_set; [apply good_new; [auto with idx|simpl; lia]|reflexivity|].
  intros o out HO Gout Eout. destruct (target_ok o HO) as (E & _). rewrite E. cbn [bind].
  pose proof HO as HO'. apply in_range_4 in HO'. destruct HO' as (b & ch & i & j & -> & _). cbn [nth]. apply (set_el_dims out [n; c; oh; ow]); auto.
Qed.
Lemma pool_backward_any : forall l' (g : tensor T), po_size l' = po_size l -> po_stride l' = po_stride l -> po_pad l' = po_pad l -> po_in l' = Some x -> good g -> tdims g = [n; c; oh; ow] ->
  pool_backward l' g = Ok (tensor_of (tdims x) (fun p => fold_left s_add (map (el g) (filter (fun o => idx_eqb (target o) p) (all_indices (tdims g)))) zero)).
Proof.
  intros l' g E1 E2 E3 EI Gg Eg. destruct (pool_sizes l x n c h w Gx Ex Hst Hsz Hh Hw) as (Pn & Pc & Poh & Pow & HM & MH & MW).
  assert (EF : forall b k i j, find_max l' x b k i j = find_max l x b k i j) by (intros; unfold find_max; rewrite E1, E2, E3; reflexivity).
  unfold pool_backward. rewrite EI. rewrite Eg. assert (R0 : rd (tdims x) 0 = Ok n) by (rewrite Ex; reflexivity). assert (R1 : rd (tdims x) 1 = Ok c) by (rewrite Ex; reflexivity). rewrite R0, R1.
  change (rd [n; c; oh; ow] 2) with (Ok oh). change (rd [n; c; oh; ow] 3) with (Ok ow). cbn [bind].
  rewrite (for4_nest n c oh ow). rewrite (good_shape x) by auto.
  rewrite (nest_scatter [n; c; oh; ow] target (el g)).
  - f_equal. apply tensor_of_ext; [apply good_dims; auto|]. intros p Hp. rewrite el_new by auto. reflexivity.
  - apply pos_forall; auto with idx.
  - apply good_new; [apply good_pos; auto|apply good_max; auto].
  - intros o HO. destruct (target_ok o HO) as (_ & HI & _). exact HI.
  - intros o t HO Gt Et. destruct (target_ok o HO) as (E & HI & EW). rewrite EF, E. cbn [bind].
    pose proof HO as HO'. apply in_range_4 in HO'. destruct HO' as (b & ch & i & j & -> & _). cbn [nth] in *.
    rewrite t_at_ok by (auto; rewrite Eg; auto). cbn [bind]. rewrite <- EW. apply t_at_add_ok; auto. rewrite Et. exact HI.
Qed.
End Pool.
Lemma pool_total : forall (l : pool T) (x : tensor T) n c h w, good x -> tdims x = [n; c; h; w] ->
  po_pad l = 0 -> 0 < po_stride l -> 0 < po_size l -> po_size l <= h -> po_size l <= w ->
  exists y, pool_forward l x = (mkPool (po_size l) (po_stride l) (po_pad l) (Some x), Ok y) /\ good y /\
    tdims y = [n; c; pool_extent (po_size l) (po_stride l) h; pool_extent (po_size l) (po_stride l) w] /\
    forall g : tensor T, good g -> tdims g = tdims y -> exists gx, pool_backward (mkPool (po_size l) (po_stride l) (po_pad l) (Some x)) g = Ok gx /\ good gx /\ tdims gx = tdims x.
Proof.
  intros l x n c h w Gx Ex Hpad Hst Hsz Hh Hw. destruct (pool_sizes l x n c h w Gx Ex Hst Hsz Hh Hw) as (Pn & Pc & Poh & Pow & HM & MH & MW).
  eexists. split; [apply (pool_forward_any l x n c h w); auto|]. split; [apply good_4; auto|]. split; [reflexivity|]. intros g Gg Eg.
  eexists. split; [apply (pool_backward_any l x n c h w); auto|]. split; [apply good_tensor_of; [apply good_pos|apply good_max]; auto|reflexivity].
Qed.
End S.
