(** The arithmetic the ordering code uses on eigenvalue approximations, as a
    record of operations, and the few order facts the theorems assume about
    it.  Rounded IEEE arithmetic satisfies them on numbers that are not NaN
    (rounding is monotone); no exactness is assumed.  Theorems take
    [vlaws] as an explicit hypothesis, and [Zlaws] shows it can be met. *)
From Coq Require Import ZArith Lia Bool QArith Qabs.

Record vops (V : Type) := {
  vleb : V -> V -> bool;      (* a <= b *)
  vltb : V -> V -> bool;      (* a <  b *)
  veqb : V -> V -> bool;      (* a == b *)
  vsub : V -> V -> V;
  vabs : V -> V;
  vneg : V -> V }.
Arguments vleb {V}. Arguments vltb {V}. Arguments veqb {V}. Arguments vsub {V}.
Arguments vabs {V}. Arguments vneg {V}.

(** fabs(x - s) *)
Definition vdist {V} (o : vops V) (s x : V) : V := vabs o (vsub o x s).

Record vlaws {V} (o : vops V) : Prop := {
  vl_total : forall a b, vleb o a b = true \/ vleb o b a = true;
  vl_trans : forall a b c, vleb o a b = true -> vleb o b c = true -> vleb o a c = true;
  vl_lt : forall a b, vltb o a b = negb (vleb o b a);
  vl_eq : forall a b, veqb o a b = true <-> vleb o a b = true /\ vleb o b a = true;
  vl_neg : forall a b, vleb o a b = true -> vleb o (vneg o b) (vneg o a) = true;
  vl_right : forall s x y, vleb o s x = true -> vleb o x y = true ->
               vleb o (vdist o s x) (vdist o s y) = true;
  vl_left : forall s x y, vleb o x y = true -> vleb o y s = true ->
               vleb o (vdist o s y) (vdist o s x) = true }.

Definition Zops : vops Z :=
  {| vleb := Z.leb; vltb := Z.ltb; veqb := Z.eqb; vsub := Z.sub; vabs := Z.abs; vneg := Z.opp |}.

Lemma Zlaws : vlaws Zops.
Proof.
  constructor; unfold vdist; simpl; intros;
    rewrite ?Z.leb_le, ?Z.eqb_eq in *; try lia.
Qed.

Definition Qops : vops Q :=
  {| vleb := Qle_bool; vltb := fun a b => negb (Qle_bool b a); veqb := Qeq_bool;
     vsub := Qminus; vabs := Qabs; vneg := Qopp |}.

Lemma Qlaws : vlaws Qops.
Proof.
  constructor; unfold vdist; cbn [vleb vltb veqb vsub vabs vneg Qops]; intros;
    rewrite ?Qle_bool_iff in *; auto.
  - destruct (Qlt_le_dec a b); [left|right]; auto. apply Qlt_le_weak; auto.
  - eapply Qle_trans; eauto.
  - rewrite Qeq_bool_iff. split.
    + intros H. rewrite H. split; apply Qle_refl.
    + intros [H1 H2]. apply Qle_antisym; auto.
  - apply Qopp_le_compat; auto.
  - rewrite !Qabs_pos.
    + apply Qplus_le_compat; auto. apply Qle_refl.
    + apply -> Qle_minus_iff. eapply Qle_trans; eauto.
    + apply -> Qle_minus_iff. auto.
  - rewrite !Qabs_neg.
    + apply Qopp_le_compat. apply Qplus_le_compat; auto. apply Qle_refl.
    + setoid_replace 0%Q with (s - s)%Q by ring. apply Qplus_le_compat; [|apply Qle_refl].
      eapply Qle_trans; eauto.
    + setoid_replace 0%Q with (s - s)%Q by ring. apply Qplus_le_compat; [auto|apply Qle_refl].
Qed.

(** The six targets of include/primme_eigs.h (enum primme_target). *)
Inductive target := smallest | largest | closest_geq | closest_leq | closest_abs | largest_abs.

(** The convergence flags of a Ritz pair (src/eigs/common_eigs.h 41-46). *)
Inductive flag := UNCONVERGED | SKIP_UNTIL_RESTART | CONVERGED | PRACTICALLY_CONVERGED.
Definition is_unconverged (f : flag) : bool :=
  match f with UNCONVERGED => true | _ => false end.
