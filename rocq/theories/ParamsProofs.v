(** Proofs about ParamsModel. *)
From Coq Require Import ZArith List Bool Lia.
From Verif Require Import Base FieldsModel ParamsModel.
Import ListNotations.
Open Scope Z_scope.

(** Evaluate reads of structures built by assignments to known members. *)
Ltac fields1 :=
  match goal with
  | |- context [field_eqb ?a ?b] =>
    let r := eval vm_compute in (field_eqb a b) in
    match r with true => idtac | false => idtac end;
    change (field_eqb a b) with r; cbv iota beta
  end.
Ltac fields :=
  cbn [sets]; unfold set_if, set; cbv iota beta; repeat fields1.
Ltac fields_in H := revert H; fields; intro H.

Ltac zcases :=
  repeat match goal with
  | |- context [Z.eqb ?a ?b] => destruct (Z.eqb_spec a b)
  | |- context [Z.ltb ?a ?b] => destruct (Z.ltb_spec a b)
  | |- context [Z.leb ?a ?b] => destruct (Z.leb_spec a b)
  | |- context [Z.gtb ?a ?b] => rewrite (Z.gtb_ltb a b)
  | |- context [Z.geb ?a ?b] => rewrite (Z.geb_leb a b)
  end; cbn [andb orb negb] in *.

(* ---------------------------------------------------------------- *)
(** * Values of the filled structure, member by member. *)

Definition filled_basis (p : params) : Z :=
  if p P_maxBasisSize =? 0 then default_basis p else p P_maxBasisSize.

Definition filled_restart (p : params) : Z :=
  if p P_minRestartSize =? 0 then
    let q := p <+ P_maxBasisSize := filled_basis p in
    default_restart q (default_restart0 q)
  else p P_minRestartSize.

Definition filled_locking (p : params) : Z :=
  if p P_locking >=? 0 then p P_locking
  else if negb (is_extremal p) then 1
  else if p P_numEvals >? filled_restart p then 1 else 0.

Lemma modes_other : forall p f,
  f <> P_ldevecs -> f <> P_projection -> f <> P_initBasisMode -> fill_modes p f = p f.
Proof. intros; unfold fill_modes, set_if; now rewrite !set_neq by congruence. Qed.
Lemma basis_other : forall p f, f <> P_maxBasisSize -> fill_basis_size p f = p f.
Proof. intros; unfold fill_basis_size, set_if; now rewrite !set_neq by congruence. Qed.
Lemma restart_other : forall p f, f <> P_minRestartSize -> fill_restart_size p f = p f.
Proof. intros; unfold fill_restart_size, set_if; now rewrite !set_neq by congruence. Qed.
Lemma fill_nolocking : forall p f, f <> P_locking ->
  fill_defaults p f = fill_restart_size (fill_basis_size (fill_modes p)) f.
Proof. intros; unfold fill_defaults; cbv zeta; now rewrite !set_neq by congruence. Qed.

Lemma is_extremal_ext : forall p q, p P_target = q P_target -> is_extremal p = is_extremal q.
Proof. intros; unfold is_extremal; now rewrite H. Qed.

Ltac stages :=
  repeat first
    [ rewrite fill_nolocking by discriminate
    | rewrite restart_other by discriminate
    | rewrite basis_other by discriminate
    | rewrite modes_other by discriminate
    | rewrite set_eq | rewrite set_neq by discriminate ].

Lemma fill_ldevecs : forall p, fill_defaults p P_ldevecs =
  if (p P_ldevecs =? -1) && negb (p P_nLocal =? -1) then p P_nLocal else p P_ldevecs.
Proof. intros; stages; unfold fill_modes; fields; reflexivity. Qed.
Lemma fill_projection : forall p, fill_defaults p P_projection =
  if p P_projection =? 0 then 1 else p P_projection.
Proof. intros; stages; unfold fill_modes; fields; reflexivity. Qed.
Lemma fill_initBasisMode : forall p, fill_defaults p P_initBasisMode =
  if p P_initBasisMode =? 0 then 1 else p P_initBasisMode.
Proof. intros; stages; unfold fill_modes; fields; reflexivity. Qed.

Lemma basis_stage : forall p, fill_basis_size (fill_modes p) P_maxBasisSize = filled_basis p.
Proof.
  intros; unfold fill_basis_size, filled_basis, set_if; stages.
  unfold default_basis. rewrite (is_extremal_ext (fill_modes p) p) by now stages.
  now stages.
Qed.
Lemma fill_basis : forall p, fill_defaults p P_maxBasisSize = filled_basis p.
Proof. intros; stages; apply basis_stage. Qed.

Lemma restart_stage : forall p,
  fill_restart_size (fill_basis_size (fill_modes p)) P_minRestartSize = filled_restart p.
Proof.
  intros; unfold fill_restart_size, filled_restart, set_if; cbv zeta.
  set (q := fill_basis_size (fill_modes p)).
  set (q' := p <+ P_maxBasisSize := filled_basis p).
  assert (E : forall f, f <> P_ldevecs -> f <> P_projection -> f <> P_initBasisMode -> q f = q' f).
  { intros f A B C. subst q q'.
    destruct (field_eqb P_maxBasisSize f) eqn:X.
    - apply field_eqb_eq in X; subst f. now rewrite basis_stage, set_eq.
    - assert (P_maxBasisSize <> f) by (intro Y; apply field_eqb_eq in Y; congruence).
      now rewrite set_neq, basis_other, modes_other by congruence. }
  rewrite set_eq.
  assert (M : q P_minRestartSize = p P_minRestartSize) by (subst q; now stages).
  rewrite M.
  unfold default_restart, default_restart0.
  rewrite (is_extremal_ext q q') by (apply E; discriminate).
  now rewrite !E by discriminate.
Qed.
Lemma fill_restart : forall p, fill_defaults p P_minRestartSize = filled_restart p.
Proof. intros; rewrite fill_nolocking by discriminate; apply restart_stage. Qed.
Lemma fill_locking : forall p, fill_defaults p P_locking = filled_locking p.
Proof.
  intros; unfold fill_defaults; cbv zeta; rewrite set_eq.
  unfold default_locking, filled_locking.
  rewrite restart_stage. rewrite (is_extremal_ext _ p) by now stages. now stages.
Qed.
Lemma fill_other : forall p f,
  f <> P_ldevecs -> f <> P_projection -> f <> P_initBasisMode ->
  f <> P_maxBasisSize -> f <> P_minRestartSize -> f <> P_locking ->
  fill_defaults p f = p f.
Proof.
  intros. now rewrite fill_nolocking, restart_other, basis_other, modes_other.
Qed.

Ltac fill_known :=
  repeat first
    [ rewrite fill_ldevecs | rewrite fill_projection | rewrite fill_initBasisMode
    | rewrite fill_basis | rewrite fill_restart | rewrite fill_locking
    | rewrite fill_other by discriminate ].

(* ---------------------------------------------------------------- *)
(** * The mutual recursion ends. *)

Lemma method_common_dyn : forall m p,
  method_common m p P_dynamicMethodSwitch = if m =? PRIMME_DYNAMIC then 1 else 0.
Proof. intros; unfold method_common; fields; reflexivity. Qed.

Lemma method_specific_dyn : forall m p q,
  method_specific m p = Some q -> q P_dynamicMethodSwitch = p P_dynamicMethodSwitch.
Proof.
  intros m p q. unfold method_specific.
  repeat match goal with
  | |- (if ?c then _ else _) = _ -> _ => destruct c
  end; intro H; inversion H; subst; clear H;
  unfold plusK_retain, leftQ_by_precond; fields; reflexivity.
Qed.

Lemma set_defaults_nonneg : forall k p,
  0 <= p P_dynamicMethodSwitch -> set_defaults_fuel (S k) p = Some (fill_defaults p).
Proof.
  intros; cbn [set_defaults_fuel].
  destruct (Z.ltb_spec (p P_dynamicMethodSwitch) 0); [lia|]. reflexivity.
Qed.

Lemma set_method_with_total : forall k m p,
  set_method_with (set_defaults_fuel (S k)) m p =
  let m' := resolve_method m p in
  let p' := method_common m' p in
  match method_specific m' p' with
  | None => Some (-1, p')
  | Some q => Some (0, fill_defaults q)
  end.
Proof.
  intros. unfold set_method_with. cbv zeta.
  destruct (method_specific (resolve_method m p) (method_common (resolve_method m p) p)) eqn:E; auto.
  rewrite set_defaults_nonneg; auto.
  erewrite method_specific_dyn by eauto. rewrite method_common_dyn.
  destruct (_ =? _); lia.
Qed.

Definition dynamic_preset (p : params) : params :=
  match method_specific PRIMME_DYNAMIC (method_common PRIMME_DYNAMIC p) with
  | Some q => q | None => p end.

Lemma set_defaults_total : forall p,
  primme_set_defaults p =
  Some (if p P_dynamicMethodSwitch <? 0
        then fill_defaults (fill_defaults (dynamic_preset p))
        else fill_defaults p).
Proof.
  intros. unfold primme_set_defaults.
  destruct (Z.ltb_spec (p P_dynamicMethodSwitch) 0).
  - change (set_defaults_fuel 2 p) with
      (p1 <- (if p P_dynamicMethodSwitch <? 0
           then r <- set_method_with (set_defaults_fuel 1) PRIMME_DYNAMIC p ;
                Some (snd r)
           else Some p) ;
       Some (fill_defaults p1)).
    destruct (Z.ltb_spec (p P_dynamicMethodSwitch) 0); [|lia].
    rewrite set_method_with_total. reflexivity.
  - apply set_defaults_nonneg; auto.
Qed.

(* ---------------------------------------------------------------- *)
(** * Idempotence *)

Lemma default_basis_zero : forall p,
  default_basis p = 0 -> p P_n - p P_numOrthoConst = 0.
Proof. intros p. unfold default_basis. destruct (is_extremal p); lia. Qed.

Lemma is_extremal_fill : forall p, is_extremal (fill_defaults p) = is_extremal p.
Proof. intros; apply is_extremal_ext; now fill_known. Qed.

Lemma filled_basis_fill : forall p, filled_basis (fill_defaults p) = filled_basis p.
Proof.
  intros. unfold filled_basis at 1. fill_known.
  destruct (Z.eqb_spec (filled_basis p) 0) as [E|E]; auto.
  rewrite E. unfold filled_basis in E. destruct (Z.eqb_spec (p P_maxBasisSize) 0); [|lia].
  apply default_basis_zero in E.
  unfold default_basis. rewrite is_extremal_fill. fill_known.
  destruct (is_extremal p); lia.
Qed.

Lemma filled_restart_fill : forall p, filled_restart (fill_defaults p) = filled_restart p.
Proof.
  intros. unfold filled_restart at 1. fill_known.
  destruct (Z.eqb_spec (filled_restart p) 0) as [E|E]; auto.
  unfold filled_restart in E |- *.
  destruct (Z.eqb_spec (p P_minRestartSize) 0); [|lia].
  cbv zeta in *. rewrite filled_basis_fill.
  unfold default_restart, default_restart0 in *.
  assert (X : is_extremal (fill_defaults p <+ P_maxBasisSize := filled_basis p)
            = is_extremal (p <+ P_maxBasisSize := filled_basis p)).
  { apply is_extremal_ext. fields. now fill_known. }
  rewrite X. clear X. revert E. fields. fill_known. auto.
Qed.

Lemma filled_locking_fill : forall p, filled_locking (fill_defaults p) = filled_locking p.
Proof.
  intros. unfold filled_locking at 1. fill_known.
  destruct (Z.geb_spec (filled_locking p) 0) as [E|E]; auto.
  unfold filled_locking in E. destruct (Z.geb_spec (p P_locking) 0); [lia|].
  destruct (negb (is_extremal p)); [lia|].
  destruct (p P_numEvals >? filled_restart p); lia.
Qed.

Lemma fill_idem : forall p, same (fill_defaults (fill_defaults p)) (fill_defaults p).
Proof.
  intros p f.
  destruct (field_dec f P_ldevecs); [subst; fill_known; zcases; auto; try lia; congruence|].
  destruct (field_dec f P_projection); [subst; fill_known; zcases; auto; lia|].
  destruct (field_dec f P_initBasisMode); [subst; fill_known; zcases; auto; lia|].
  destruct (field_dec f P_maxBasisSize); [subst; fill_known; apply filled_basis_fill|].
  destruct (field_dec f P_minRestartSize); [subst; fill_known; apply filled_restart_fill|].
  destruct (field_dec f P_locking); [subst; fill_known; apply filled_locking_fill|].
  now rewrite fill_other.
Qed.

(* ---------------------------------------------------------------- *)
(** * Sizes *)

(** The rounding of the restart size to whole blocks. *)
Lemma restart_rounding : forall m b r k, 1 <= b -> 0 <= k -> r + k < m ->
  let r' := m - b * (1 + Z.quot (m - r - 1 - k) b) - k in
  r - b < r' <= r.
Proof.
  intros. cbv zeta. subst r'.
  assert (A := Z.quot_rem' (m - r - 1 - k) b).
  assert (B := Z.rem_bound_pos (m - r - 1 - k) b ltac:(lia) ltac:(lia)).
  nia.
Qed.

Lemma quot10 : forall a, 0 <= a -> 10 * Z.quot a 10 <= a < 10 * Z.quot a 10 + 10.
Proof.
  intros. assert (A := Z.quot_rem' a 10).
  assert (B := Z.rem_bound_pos a 10 ltac:(lia) ltac:(lia)). lia.
Qed.
