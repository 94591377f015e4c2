(** * Vocabulary for C96: parameters at different addresses *)
From Verif Require Import Base Scalar Types M_Opt M_Net.

(** Different live objects have different addresses: [addr] gives parameters 0 .. n-1 different addresses. *)
Definition distinct_addresses (n : Z) (addr : Z -> Z) : Prop := forall i j, 0 <= i < n -> 0 <= j < n -> addr i = addr j -> i = j.

(** An optimizer as its constructor leaves it: nothing stored for any tensor. *)
Definition unused {T} (o : optim T) : Prop :=
  match o with
  | OSGD o => forall k, sg_buf o k = None
  | ORMS o => forall k, rp_sq o k = None /\ rp_mean o k = None /\ rp_vel o k = None
  | OAdam o => forall k, ad_m o k = None /\ ad_v o k = None
  end.
(** The two networks are equal but for the addresses: same layers, loss and random state, and optimizers with equal settings that hold
    the same state for parameter [k], the one under [a k] and the other under [b k]. *)
Definition same_bufs {T} (N : Z) (a b : Z -> Z) (p q : bufs T) : Prop := forall k, 0 <= k < N -> p (a k) = q (b k).
Definition same_optim {T} (N : Z) (a b : Z -> Z) (o p : optim T) : Prop :=
  match o, p with
  | OSGD o, OSGD p => sg_lr o = sg_lr p /\ sg_mom o = sg_mom p /\ sg_damp o = sg_damp p /\ sg_wd o = sg_wd p /\ sg_nest o = sg_nest p /\
      same_bufs N a b (sg_buf o) (sg_buf p)
  | ORMS o, ORMS p => rp_lr o = rp_lr p /\ rp_alpha o = rp_alpha p /\ rp_eps o = rp_eps p /\ rp_mom o = rp_mom p /\ rp_cent o = rp_cent p /\ rp_wd o = rp_wd p /\
      same_bufs N a b (rp_sq o) (rp_sq p) /\ same_bufs N a b (rp_mean o) (rp_mean p) /\ same_bufs N a b (rp_vel o) (rp_vel p)
  | OAdam o, OAdam p => ad_init o = ad_init p /\ ad_lr o = ad_lr p /\ ad_b1 o = ad_b1 p /\ ad_b2 o = ad_b2 p /\ ad_eps o = ad_eps p /\ ad_l1 o = ad_l1 p /\
      ad_l2 o = ad_l2 p /\ ad_decay o = ad_decay p /\ ad_it o = ad_it p /\ ad_batch o = ad_batch p /\
      same_bufs N a b (ad_m o) (ad_m p) /\ same_bufs N a b (ad_v o) (ad_v p)
  | _, _ => False
  end.
Definition same_net {T G} (a b : Z -> Z) (n m : net T G) : Prop :=
  n_layers n = n_layers m /\ n_loss n = n_loss m /\ n_rng n = n_rng m /\
  match n_opt n, n_opt m with Some o, Some p => same_optim (2 * Zlen (n_layers n)) a b o p | None, None => True | _, _ => False end.
