(** check_input against the documented constraints; seeds; driver. *)
From Coq Require Import ZArith List Bool Lia.
From Verif Require Import Base FieldsModel ParamsModel SpecParams ParamsProofs.
Import ListNotations.
Open Scope Z_scope.

Fixpoint first_code (l : list (bool * Z)) : Z :=
  match l with [] => 0 | (b, c) :: t => if b then c else first_code t end.

Definition shifty (p : params) : bool :=
  (p P_target =? primme_largest_abs) || (p P_target =? primme_closest_geq)
  || (p P_target =? primme_closest_leq) || (p P_target =? primme_closest_abs).

Definition table (meps : Z) (o : outputs) (p : params) : list (bool * Z) :=
  [ ((p P_n <? 0) || (p P_nLocal <? 0) || (p P_nLocal >? p P_n), -5);
    (p P_numProcs <? 1, -6);
    (p P_matrixMatvec =? 0, -7);
    ((p P_applyPreconditioner =? 0) && (p P_precondition >? 0), -8);
    (p P_numEvals >? p P_n, -10);
    (p P_numEvals <? 0, -11);
    (nonnull (p P_convTestFun) && negb (p P_eps =? 0) && (p P_eps <? meps), -12);
    (negb (p P_target =? primme_smallest)
       && negb (p P_target =? primme_largest)
       && negb (p P_target =? primme_largest_abs)
       && negb (p P_target =? primme_closest_geq)
       && negb (p P_target =? primme_closest_leq)
       && negb (p P_target =? primme_closest_abs), -13);
    ((p P_numOrthoConst <? 0) || (p P_numOrthoConst >? p P_n), -16);
    ((p P_maxBasisSize <? 2) && (p P_n >? 2), -17);
    ((p P_minRestartSize <? 0)
       || ((p P_minRestartSize =? 0) && (p P_n >? 2) && (p P_numEvals >? 0)), -18);
    ((p P_maxBlockSize <? 0)
       || ((p P_maxBlockSize =? 0) && (p P_numEvals >? 0)), -19);
    (p P_maxPrevRetain <? 0, -20);
    (p P_initSize <? 0, -22);
    ((p P_locking =? 0) && (p P_initSize >? p P_maxBasisSize), -23);
    ((p P_locking >? 0) && (p P_initSize >? p P_numEvals), -24);
    ((p P_minRestartSize + p P_maxPrevRetain >=? p P_maxBasisSize)
       && (p P_n >? p P_maxBasisSize), -25);
    ((p P_minRestartSize >? p P_n) && (p P_n >? 2), -26);
    ((p P_printLevel <? 0) || (p P_printLevel >? 5), -27);
    (negb (p P_convTest =? primme_full_LTolerance)
       && negb (p P_convTest =? primme_decreasing_LTolerance)
       && negb (p P_convTest =? primme_adaptive_ETolerance)
       && negb (p P_convTest =? primme_adaptive), -28);
    ((p P_convTest =? primme_decreasing_LTolerance)
       && (p P_relTolBase <=? code_1), -29);
    (o_evals o =? 0, -30);
    ((o_evecs o =? 0) || o_badptr o, -31);
    (o_resNorms o =? 0, -32);
    ((p P_locking =? 0) && (p P_minRestartSize <? p P_numEvals)
       && (p P_n >? 2), -33);
    (p P_ldevecs <? p P_nLocal, -34);
    (negb (p P_ldOPs =? 0) && (p P_ldOPs <? p P_nLocal), -35);
    ((p P_locking =? 0) && ((p P_target =? primme_closest_leq)
                                 || (p P_target =? primme_closest_geq)), -38);
    (nonnull (p P_massMatrixMatvec)
       && negb (p P_projection =? primme_proj_RR), -39);
    (shifty p && (p P_numTargetShifts <=? 0), -14);
    (shifty p && (p P_targetShifts =? 0), -15) ].

Lemma check_input_table : forall meps o p, check_input meps o p = first_code (table meps o p).
Proof.
  intros. unfold check_input, table.
  cbn [first_code].
  repeat match goal with
  | |- (if ?c then _ else _) = (if ?c then _ else _) => destruct c; [reflexivity|]
  end.
  unfold shifty.
  destruct ((p P_target =? primme_largest_abs) || (p P_target =? primme_closest_geq)
  || (p P_target =? primme_closest_leq) || (p P_target =? primme_closest_abs)); cbn [andb];
  reflexivity.
Qed.

(** What the code enforces, as propositions in the order of the cascade. *)
Definition enforced (meps : Z) (o : outputs) (p : params) : list (Z * Prop) :=
  [ (-5, p P_n < 0 \/ p P_nLocal < 0 \/ p P_nLocal > p P_n);
    (-6, p P_numProcs < 1);
    (-7, p P_matrixMatvec = 0);
    (-8, p P_applyPreconditioner = 0 /\ p P_precondition > 0);
    (-10, p P_numEvals > p P_n);
    (-11, p P_numEvals < 0);
    (-12, p P_convTestFun <> 0 /\ p P_eps <> 0 /\ p P_eps < meps);
    (-13, ~ (0 <= p P_target <= 5));
    (-16, p P_numOrthoConst < 0 \/ p P_numOrthoConst > p P_n);
    (-17, p P_maxBasisSize < 2 /\ p P_n > 2);
    (-18, p P_minRestartSize < 0
          \/ (p P_minRestartSize = 0 /\ p P_n > 2 /\ p P_numEvals > 0));
    (-19, p P_maxBlockSize < 0 \/ (p P_maxBlockSize = 0 /\ p P_numEvals > 0));
    (-20, p P_maxPrevRetain < 0);
    (-22, p P_initSize < 0);
    (-23, p P_locking = 0 /\ p P_initSize > p P_maxBasisSize);
    (-24, p P_locking > 0 /\ p P_initSize > p P_numEvals);
    (-25, p P_maxPrevRetain + p P_minRestartSize >= p P_maxBasisSize
          /\ p P_n > p P_maxBasisSize);
    (-26, p P_minRestartSize > p P_n /\ p P_n > 2);
    (-27, p P_printLevel < 0 \/ p P_printLevel > 5);
    (-28, ~ (0 <= p P_convTest <= 3));
    (-29, p P_convTest = 1 /\ p P_relTolBase <= 4607182418800017408);
    (-30, o_evals o = 0);
    (-31, o_evecs o = 0 \/ o_badptr o = true);
    (-32, o_resNorms o = 0);
    (-33, p P_locking = 0 /\ p P_minRestartSize < p P_numEvals /\ p P_n > 2);
    (-34, p P_ldevecs < p P_nLocal);
    (-35, p P_ldOPs <> 0 /\ p P_ldOPs < p P_nLocal);
    (-38, p P_locking = 0 /\ (p P_target = 3 \/ p P_target = 2));
    (-39, p P_massMatrixMatvec <> 0 /\ p P_projection <> 1);
    (-14, wants_shifts p /\ p P_numTargetShifts <= 0);
    (-15, wants_shifts p /\ p P_targetShifts = 0) ].

Lemma table_reflects : forall meps o p,
  Forall2 (fun b e => snd b = fst e /\ (fst b = true <-> snd e))
          (table meps o p) (enforced meps o p).
Proof.
  intros. unfold table, enforced.
  repeat (apply Forall2_cons; [split; [reflexivity|] | ]); try apply Forall2_nil;
  cbn [fst snd];
  unfold shifty, wants_shifts, nonnull, code_1, primme_smallest, primme_largest,
    primme_closest_geq, primme_closest_leq, primme_closest_abs, primme_largest_abs,
    primme_full_LTolerance, primme_decreasing_LTolerance, primme_adaptive_ETolerance,
    primme_adaptive, primme_proj_RR;
  rewrite ?orb_true_iff, ?andb_true_iff, ?negb_true_iff, ?Z.eqb_eq, ?Z.eqb_neq,
    ?Z.ltb_lt, ?Z.leb_le, ?Z.gtb_lt, ?Z.geb_le; try lia.
  tauto.
Qed.

Lemma first_code_cases : forall (l : list (bool * Z)) (E : list (Z * Prop)),
  Forall2 (fun b e => snd b = fst e /\ (fst b = true <-> snd e)) l E ->
  (first_code l = 0 /\ Forall (fun e => ~ snd e) E) \/
  exists E1 P E2, E = E1 ++ (first_code l, P) :: E2 /\ P /\ Forall (fun e => ~ snd e) E1.
Proof.
  intros l E H. induction H as [|[b c] [c' P] l E [A B] F IH]; cbn in *.
  - left; auto.
  - subst c'. destruct b.
    + right. exists [], P, E. cbn; repeat split; auto. apply B; auto.
    + assert (~ P) by (intro X; apply B in X; congruence).
      destruct IH as [[Z0 G]|(E1 & Q & E2 & G & HQ & K)].
      * left; split; auto.
      * right. exists ((c, P) :: E1), Q, E2. cbn. rewrite G at 1. repeat split; auto.
Qed.

Lemma check_input_cases : forall meps o p,
  (check_input meps o p = 0 /\ Forall (fun e => ~ snd e) (enforced meps o p)) \/
  exists E1 P E2, enforced meps o p = E1 ++ (check_input meps o p, P) :: E2
    /\ P /\ Forall (fun e => ~ snd e) E1.
Proof.
  intros. rewrite check_input_table. apply first_code_cases, table_reflects.
Qed.

Lemma enforced_codes : forall meps o p, map fst (enforced meps o p) = report_order.
Proof. reflexivity. Qed.

Lemma enforced_nonzero : forall meps o p c P, In (c, P) (enforced meps o p) -> c <> 0.
Proof.
  intros. apply (in_map fst) in H. rewrite enforced_codes in H. cbn in H.
  intuition congruence.
Qed.

(** Enforced and documented constraints compared. *)
Lemma enforced_documented : forall meps o p c P,
  In (c, P) (enforced meps o p) -> P ->
  violates p (o_evals o) (o_evecs o) (o_resNorms o) (o_badptr o = true) meps c
  \/ (c = -12 /\ p P_convTestFun <> 0 /\ p P_eps < 0)
  \/ (c = -39 /\ p P_massMatrixMatvec <> 0 /\ p P_projection <> 1).
Proof.
  intros meps o p c P H HP.
  cbn [enforced In] in H.
  repeat (destruct H as [H|H];
    [ injection H as <- <-;
      first [ left; constructor; solve [auto | tauto | lia] | idtac ] | ]); try contradiction.
  - destruct (Z_lt_ge_dec (p P_eps) 0).
    + right; left; tauto.
    + left; constructor. split; [tauto|split; [lia|tauto]].
  - right; right; tauto.
Qed.

Lemma documented_enforced : forall meps o p c,
  violates p (o_evals o) (o_evecs o) (o_resNorms o) (o_badptr o = true) meps c ->
  (exists P, In (c, P) (enforced meps o p) /\ P)
  \/ (c = -26 /\ p P_minRestartSize = p P_n).
Proof.
  intros meps o p c H. destruct H as
   [H|H|H|H|H|H|H|H|H|H|H|H|H|H|H|H|H|H|H|H|H|H|H|H|H|H|H|H|H|H];
  try solve [left; eexists; split;
    [ unfold enforced; cbn [In];
      first [ left; reflexivity | right ];
      repeat first [ left; reflexivity | right ] | exact H ]].
  - (* -12 *) left. eexists. split.
    + unfold enforced; cbn [In]. do 6 right. left. reflexivity.
    + lia.
  - (* -26 *)
    destruct (Z.eq_dec (p P_minRestartSize) (p P_n)); [right; auto|].
    left. eexists. split.
    + unfold enforced; cbn [In]. do 17 right. left. reflexivity.
    + lia.
Qed.
