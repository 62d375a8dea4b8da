(** C63, continued: calls of [eigsh] that fail without an exception, and examples. *)
From Coq Require Import ZArith List Bool Lia.
From Verif Require Import Base Values FieldsModel ParamsModel LockProofs PyModel SpecPy.
From Verif Require Import ParamsProofs DefaultsProofs PropsParams PropsPy.
Import ListNotations.
Open Scope Z_scope.

Section Eigsh.
Context {V K : Type}.
Variables (vzero : V) (kzero : K).
Notation setup := (eigsh_setup (V:=V) (K:=K) vzero kzero).
Notation run := (eigsh (V:=V) (K:=K) vzero kzero).

(** eigsh(A, 6, ncv=1, v0=X) for a matrix of order 100, with and without
    return_unconverged. *)
Definition tiny_basis (unconv : bool) (gs : list (list K)) : eigsh_args V K :=
  {| a_rows := 100; a_cols := 100; a_type := TDouble; a_k := 6; a_M := None; a_sigma := None;
     a_which := LM; a_v0 := Some (100, gs); a_ncv := Some 1; a_maxiter := None; a_tol := 0; a_OPinv := None; a_lock := None;
     a_maxBlockSize := 0; a_minRestartSize := 0; a_maxPrevRetain := 0; a_method := None; a_kargs := Some [];
     a_convtest := false; a_history := false; a_return_eigenvectors := true; a_return_stats := false;
     a_return_unconverged := unconv; a_raise_for_unconverged := true |}.
Definition some_arrays : outputs := {| o_evals := 1; o_evecs := 1; o_resNorms := 1; o_badptr := false |}.

(** The structure that reaches the solver; the guesses only count. *)
Definition tiny_params : params :=
  sets (sets (primme_initialize 1)
    [(P_matrix, 1); (P_n, 100); (P_numEvals, 6); (P_target, 5); (P_numTargetShifts, 1); (P_targetShifts, 1);
     (P_eps, 0); (P_maxBasisSize, 1); (P_precondition, 0)])
    [(P_matrixMatvec, 1); (P_applyPreconditioner, 1); (P_initSize, 6)].
Definition tiny_call (gs : list (list K)) : eigsh_call V K :=
  {| c_routine := dprimme; c_params := tiny_params; c_shift := Some vzero; c_evals := repeat vzero 6;
     c_evecs := gs; c_norms := repeat vzero 6 |}.

Lemma tiny_setup : forall unconv gs, length gs = 6%nat -> setup (tiny_basis unconv gs) = Some (tiny_call gs).
Proof.
  intros unconv gs L.
  transitivity (Some {| c_routine := dprimme;
      c_params := sets (sets (primme_initialize 1)
        [(P_matrix, 1); (P_n, 100); (P_numEvals, 6); (P_target, 5); (P_numTargetShifts, 1); (P_targetShifts, 1);
         (P_eps, 0); (P_maxBasisSize, 1); (P_precondition, 0)])
        [(P_matrixMatvec, 1); (P_applyPreconditioner, 1); (P_initSize, Z.min (Z.of_nat (length gs)) 6)];
      c_shift := Some vzero; c_evals := repeat vzero 6;
      c_evecs := firstn 6 gs ++ repeat (repeat kzero 100) (6 - length (firstn 6 gs)); c_norms := repeat vzero 6 |}).
  - reflexivity.
  - rewrite (firstn_all2 gs) by lia. rewrite L. cbn [Nat.sub repeat]. rewrite app_nil_r. reflexivity.
Qed.

Lemma tiny_refused : forall e, (forall p, e_coherence e p = 0) -> e_meps e <= e_default_eps e ->
  exists q, driver primme_op_double (fun _ => Some e) some_arrays tiny_params = Some (-17, q) /\ q P_initSize = 0.
Proof.
  intros e C ME. unfold driver, wrapper, wrapper_prepare. cbv zeta.
  set (p1 := sequential_defaults some_arrays (operator_types primme_op_double tiny_params)).
  rewrite set_defaults_total. cbn [bind].
  set (p2 := if p1 P_dynamicMethodSwitch <? 0 then fill_defaults (fill_defaults (dynamic_preset p1)) else fill_defaults p1).
  unfold wrapper_run. cbv zeta. rewrite C. cbn [Z.eqb negb].
  change (default_callbacks e (reset_seeds (default_ldOPs e (default_orth e p2)))) with (prepared e some_arrays p2).
  assert (X : check_input (e_meps e) some_arrays (prepared e some_arrays p2) = -17).
  { assert (F_P_n : p2 P_n = 100) by (vm_compute; reflexivity).
    assert (F_P_nLocal : p2 P_nLocal = 100) by (vm_compute; reflexivity).
    assert (F_P_numProcs : p2 P_numProcs = 1) by (vm_compute; reflexivity).
    assert (F_P_matrixMatvec : p2 P_matrixMatvec = 1) by (vm_compute; reflexivity).
    assert (F_P_applyPreconditioner : p2 P_applyPreconditioner = 1) by (vm_compute; reflexivity).
    assert (F_P_numEvals : p2 P_numEvals = 6) by (vm_compute; reflexivity).
    assert (F_P_target : p2 P_target = 5) by (vm_compute; reflexivity).
    assert (F_P_numOrthoConst : p2 P_numOrthoConst = 0) by (vm_compute; reflexivity).
    assert (F_P_maxBasisSize : p2 P_maxBasisSize = 1) by (vm_compute; reflexivity).
    assert (F_eps : p2 P_eps = 0) by (vm_compute; reflexivity).
    assert (F_fun : p2 P_convTestFun = 0) by (vm_compute; reflexivity).
    clearbody p2. clear p1.
    assert (N : forall f, ~ In f late_writes -> prepared e some_arrays p2 f = p2 f) by (intros; apply prepared_other; auto).
    unfold check_input.
    rewrite (N P_n), F_P_n by (cbn; intro H; repeat (destruct H as [H|H]; [discriminate H|]); exact H).
    rewrite (N P_nLocal), F_P_nLocal by (cbn; intro H; repeat (destruct H as [H|H]; [discriminate H|]); exact H).
    rewrite (N P_numProcs), F_P_numProcs by (cbn; intro H; repeat (destruct H as [H|H]; [discriminate H|]); exact H).
    rewrite (N P_matrixMatvec), F_P_matrixMatvec by (cbn; intro H; repeat (destruct H as [H|H]; [discriminate H|]); exact H).
    rewrite (N P_applyPreconditioner), F_P_applyPreconditioner by (cbn; intro H; repeat (destruct H as [H|H]; [discriminate H|]); exact H).
    rewrite (N P_numEvals), F_P_numEvals by (cbn; intro H; repeat (destruct H as [H|H]; [discriminate H|]); exact H).
    rewrite (N P_target), F_P_target by (cbn; intro H; repeat (destruct H as [H|H]; [discriminate H|]); exact H).
    rewrite (N P_numOrthoConst), F_P_numOrthoConst by (cbn; intro H; repeat (destruct H as [H|H]; [discriminate H|]); exact H).
    rewrite (N P_maxBasisSize), F_P_maxBasisSize by (cbn; intro H; repeat (destruct H as [H|H]; [discriminate H|]); exact H).
    assert (E : prepared e some_arrays p2 P_eps = e_default_eps e).
    { destruct (prepared_eps e some_arrays p2) as [[_ [A|A]]|[A _]]; auto; contradiction. }
    rewrite E. replace (e_default_eps e <? e_meps e) with false by (symmetry; apply Z.ltb_ge; auto).
    rewrite andb_false_r. reflexivity. }
  rewrite X. cbn [is_null_query some_arrays o_evals Z.eqb andb negb]. eexists. split; reflexivity.
Qed.

(** The C solver refuses the basis size (-17).  The arrays are as they were; eigsh returns
    no pair, or six zeros as the eigenvalues with the guesses as their eigenvectors. *)
Theorem C63_refusal_returned_refuted : forall unconv gs, length gs = 6%nat ->
  exists c, setup (tiny_basis unconv gs) = Some c /\
    (forall e, (forall p, e_coherence e p = 0) -> e_meps e <= e_default_eps e ->
       exists q, driver primme_op_double (fun _ => Some e) some_arrays (c_params c) = Some (-17, q) /\ q P_initSize = 0) /\
    (forall solve q, q P_initSize = 0 ->
       solve c = {| l_err := -17; l_params := q; l_evals := c_evals c; l_evecs := c_evecs c;
                    l_norms := c_norms c; l_exception := false |} ->
       run solve (tiny_basis unconv gs) =
         if unconv then Returned (repeat vzero 6) (Some gs) None else Returned [] (Some []) None).
Proof.
  intros unconv gs L. exists (tiny_call gs). split; [apply tiny_setup; auto|]. split; [apply tiny_refused|].
  intros solve q Q S. unfold eigsh. rewrite tiny_setup by auto. rewrite S.
  unfold eigsh_finish. cbn [l_err l_params l_evals l_evecs l_norms l_exception Z.eqb negb andb a_lock tiny_basis tiny_call
       a_return_unconverged a_return_eigenvectors a_return_stats a_k c_evals c_evecs c_norms]. rewrite Q.
  destruct unconv; cbn [andb negb]; [|reflexivity].
  unfold slice. cbn [Z.to_nat Pos.to_nat Pos.iter_op Nat.add Nat.sub skipn]. rewrite (firstn_all2 gs) by lia. reflexivity.
Qed.

(** An option that names numEvals: the solver is told there is room for ten pairs, the
    arrays have three. *)
Definition more_pairs : eigsh_args V K :=
  {| a_rows := 100; a_cols := 100; a_type := TDouble; a_k := 3; a_M := None; a_sigma := None;
     a_which := LA; a_v0 := None; a_ncv := None; a_maxiter := None; a_tol := 0; a_OPinv := None; a_lock := None;
     a_maxBlockSize := 0; a_minRestartSize := 0; a_maxPrevRetain := 0; a_method := None; a_kargs := Some [(P_numEvals, 10)];
     a_convtest := false; a_history := false; a_return_eigenvectors := true; a_return_stats := false;
     a_return_unconverged := false; a_raise_for_unconverged := true |}.
Theorem C63_arrays_too_small_refuted :
  exists c, setup more_pairs = Some c /\ c_params c P_numEvals = 10 /\ length (c_evals c) = 3%nat /\ length (c_evecs c) = 3%nat.
Proof. eexists. split; [reflexivity|]. split; [reflexivity|]. split; reflexivity. Qed.

(** A preset method, set last, replaces the argument maxPrevRetain. *)
Definition with_preset : eigsh_args V K :=
  {| a_rows := 100; a_cols := 100; a_type := TFloat; a_k := 3; a_M := None; a_sigma := None;
     a_which := SA; a_v0 := None; a_ncv := None; a_maxiter := None; a_tol := 0; a_OPinv := None; a_lock := None;
     a_maxBlockSize := 0; a_minRestartSize := 0; a_maxPrevRetain := 2; a_method := Some (Some PRIMME_GD); a_kargs := Some [];
     a_convtest := false; a_history := false; a_return_eigenvectors := true; a_return_stats := false;
     a_return_unconverged := false; a_raise_for_unconverged := true |}.
Theorem C63_preset_replaces_refuted :
  exists c, setup with_preset = Some c /\ c_params c P_maxPrevRetain = 0.
Proof.
  destruct (proj2 (C63_accepted vzero kzero with_preset)) as [c H].
  { unfold acceptable. cbn. repeat split; try discriminate; try lia. }
  exists c. split; auto.
  assert (X : option_map (fun c => c_params c P_maxPrevRetain) (setup with_preset) = Some 0) by (vm_compute; reflexivity).
  rewrite H in X. cbn in X. congruence.
Qed.
End Eigsh.

(** Three constraints, two guesses (one too many is given), 'SM' around 7. *)
Definition case_args : eigsh_args Z Z :=
  {| a_rows := 5; a_cols := 5; a_type := TInt; a_k := 1; a_M := Some 5; a_sigma := Some 7;
     a_which := SM; a_v0 := Some (5, [[1;1;1;1;1]; [2;2;2;2;2]]); a_ncv := Some 4; a_maxiter := Some 50; a_tol := 0;
     a_OPinv := Some (5, 5); a_lock := Some (5, [[1;0;0;0;0]; [0;1;0;0;0]]);
     a_maxBlockSize := 1; a_minRestartSize := 2; a_maxPrevRetain := 0; a_method := None;
     a_kargs := Some [(P_printLevel, 2); (P_maxOuterIterations, 9); (P_printLevel, 3)];
     a_convtest := true; a_history := true; a_return_eigenvectors := true; a_return_stats := true;
     a_return_unconverged := false; a_raise_for_unconverged := true |}.
Definition case_solve (c : eigsh_call Z Z) : left Z Z :=
  {| l_err := 0; l_params := set (c_params c) P_initSize 1; l_evals := [8]; l_evecs := firstn 2 (c_evecs c) ++ [[0;0;1;0;0]];
     l_norms := [3]; l_exception := false |}.
Example C63_case :
  exists c, eigsh_setup 0 0 case_args = Some c /\
  map (c_params c) [P_n; P_numEvals; P_target; P_numTargetShifts; P_numOrthoConst; P_initSize; P_maxBasisSize;
     P_maxMatvecs; P_printLevel; P_maxOuterIterations; P_precondition; P_minRestartSize]
   = [5; 1; 4; 1; 2; 1; 4; 50; 3; 9; 1; 2] /\
  c_shift c = Some 7 /\ c_routine c = dprimme /\ c_evecs c = [[1;0;0;0;0]; [0;1;0;0;0]; [1;1;1;1;1]] /\
  eigsh 0 0 case_solve case_args = Returned [8] (Some [[0;0;1;0;0]]) (Some [3]).
Proof. eexists. repeat split; reflexivity. Qed.
