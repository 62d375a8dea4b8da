(** C70: the error codes of the library in the Python, R and MATLAB interfaces. *)
From Coq Require Import Bool String List ZArith Lia.
From Verif Require Import FieldsModel ParamsModel SpecParams CheckProofs SvdsCtlModel PropsParams ErrorTables.
Import ListNotations.
Local Open Scope string_scope.
Local Open Scope Z_scope.

(** The codes that do not come from the check of the parameters (include/primme.h 116-123, and -4 for
    a NULL structure). *)
Definition failures : list Z := [-1; -2; -3; -4; -40; -41; -42; -43; -44].

(** The codes that the eigensolver returns, and those of the solver for singular values, which passes
    on those of the eigensolver in its two stages. *)
Definition eigs_code (c : Z) : Prop :=
  In c failures \/ exists meps o p, ParamsModel.check_input meps o p = c /\ c <> 0.
Definition svds_code (c : Z) : Prop :=
  In c failures \/ (exists s, SvdsCtlModel.check_input s = c /\ c <> 0) \/
  exists e, eigs_code e /\ (c = e - 100 \/ c = e - 200).

(** The parameter that is wrong when the check of the eigensolver answers a code. *)
Definition wrong_parameter (c : Z) : option string :=
  match c with
  | -5 => Some "nLocal" | -6 => Some "numProcs" | -7 => Some "matrixMatvec" | -8 => Some "applyPreconditioner"
  | -10 | -11 => Some "numEvals" | -12 => Some "eps" | -13 => Some "target" | -14 => Some "numTargetShifts"
  | -15 => Some "targetShifts" | -16 => Some "numOrthoConst" | -17 => Some "maxBasisSize"
  | -18 | -26 | -33 => Some "minRestartSize" | -19 => Some "maxBlockSize" | -20 => Some "maxPrevRetain"
  | -22 | -23 | -24 => Some "initSize" | -25 => Some "maxPrevRetain" | -27 => Some "printLevel"
  | -28 => Some "convTest" | -29 => Some "relTolBase" | -30 => Some "evals" | -31 => Some "evecs"
  | -32 => Some "resNorms" | -34 => Some "ldevecs" | -35 => Some "ldOPs" | -38 => Some "locking"
  | _ => None
  end.
Definition mentions (w t : string) : Prop := String.index 0 w t <> None.

Definition eigs_list : list Z := (failures ++ report_order)%list.
Definition svds_list : list Z :=
  (failures ++ [-5; -6; -7; -8; -9; -10; -11; -13; -14; -15; -16; -17; -18; -19]
   ++ map (fun e => e - 100) eigs_list ++ map (fun e => e - 200) eigs_list)%list.

Lemma eigs_listed : forall c, eigs_code c -> In c eigs_list.
Proof.
  intros c [H|(meps & o & p & H & N)]; apply in_or_app; [left; exact H|right].
  destruct (check_input_cases meps o p) as [[Z0 _]|(E1 & P & E2 & E & _)]; [congruence|].
  rewrite <- (enforced_codes meps o p), E, map_app. apply in_or_app. right. left. exact H.
Qed.

Lemma svds_listed : forall c, svds_code c -> In c svds_list.
Proof.
  intros c [H|[(s & H & N)|(e & E & H)]]; unfold svds_list; apply in_or_app; [left; exact H| |];
    right; apply in_or_app.
  - left. revert H. unfold SvdsCtlModel.check_input.
    repeat match goal with |- (if ?b then _ else _) = _ -> _ => destruct b; [intros <-; cbn; tauto|] end.
    intros <-. congruence.
  - right. apply in_or_app. apply eigs_listed in E.
    destruct H as [-> | ->]; [left; exact (in_map (fun e => e - 100) _ _ E)|right; exact (in_map (fun e => e - 200) _ _ E)].
Qed.

(** A property that can be decided holds of all codes when it does of those of the list. *)
Lemma by_list : forall (f : Z -> bool) l, forallb f l = true -> forall c, In c l -> f c = true.
Proof. intros f l H c I. rewrite forallb_forall in H. exact (H c I). Qed.

Definition filled (t : string) : bool := negb (String.eqb t "").
Lemma filled_spec : forall t, filled t = true -> t <> "".
Proof. intros t H. unfold filled in H. destruct (String.eqb_spec t ""); [discriminate|exact n]. Qed.

(** *** C70_python_partial: in Python every code of the library raises the exception of the module,
    with that code and a text.  (Without -39: C70_projection_refuted.) *)
Theorem C70_python_partial :
  (forall c, eigs_code c -> c <> -39 -> exists t, t <> "" /\ py_error c = Primme c t) /\
  (forall c, svds_code c -> c <> -139 -> c <> -239 -> exists t, t <> "" /\ py_svds_error c = Primme c t).
Proof.
  assert (S : forall r c, (match r with Primme k t => (k =? c) && filled t | KeyError => false end) = true ->
            exists t, t <> "" /\ r = Primme c t).
  { intros [k t|] c H; [|discriminate]. apply andb_true_iff in H. destruct H as [K F]. apply Z.eqb_eq in K. subst k.
    exists t. split; [apply filled_spec; exact F|reflexivity]. }
  split.
  - intros c H N. apply S. apply eigs_listed in H.
    assert (Q : (c =? -39) || (match py_error c with Primme k t => (k =? c) && filled t | KeyError => false end) = true).
    { revert c H N. intros c H _. revert c H. apply by_list. vm_compute. reflexivity. }
    apply Z.eqb_neq in N. rewrite N in Q. exact Q.
  - intros c H N1 N2. apply S. apply svds_listed in H.
    assert (Q : (c =? -139) || (c =? -239) || (match py_svds_error c with Primme k t => (k =? c) && filled t | KeyError => false end) = true).
    { clear N1 N2. revert c H. apply by_list. vm_compute. reflexivity. }
    apply Z.eqb_neq in N1, N2. rewrite N1, N2 in Q. exact Q.
Qed.

(** *** C70_stages: the errors of the stages have the text of the eigensolver, after the stage. *)
Theorem C70_stages : forall e t, eigs_code e -> py_error e = Primme e t ->
  py_svds_error (e - 100) = Primme (e - 100) ("Error from PRIMME first stage: " ++ t) /\
  py_svds_error (e - 200) = Primme (e - 200) ("Error from PRIMME second stage: " ++ t).
Proof.
  intros e t H E. apply eigs_listed in H.
  assert (R : (-100 <=? e) && (e <? 0) = true) by (revert e H E; intros e H _; revert e H; apply by_list; vm_compute; reflexivity).
  apply andb_true_iff in R. destruct R as [R1 R2]. apply Z.leb_le in R1. apply Z.ltb_lt in R2.
  unfold py_error, or_key in E. destruct (assoc e python_eigs) as [u|] eqn:A; [|discriminate]. injection E as <-.
  unfold py_svds_error. split.
  - rewrite !Z.geb_leb. rewrite (proj2 (Z.leb_gt (-100) (e - 100))) by lia.
    rewrite (proj2 (Z.leb_le (-200) (e - 100))) by lia.
    replace (e - 100 + 100) with e by lia. rewrite A. reflexivity.
  - rewrite !Z.geb_leb. rewrite (proj2 (Z.leb_gt (-100) (e - 200))) by lia.
    rewrite (proj2 (Z.leb_gt (-200) (e - 200))) by lia. rewrite (proj2 (Z.leb_le (-300) (e - 200))) by lia.
    replace (e - 200 + 200) with e by lia. rewrite A. reflexivity.
Qed.

(** *** C70_same_text: R stops with the text that Python raises, for every number that may come as a
    code, known or not. *)
Theorem C70_same_text : forall c t,
  (py_error c = Primme c t -> r_error c = t) /\
  (-300 <= c -> py_svds_error c = Primme c t -> r_svds_error c = t) /\
  (py_error c = KeyError -> r_error c = "").
Proof.
  assert (E : r_eigs = python_eigs) by reflexivity. assert (S : r_svds = python_svds) by reflexivity.
  intros c t. unfold py_error, py_svds_error, r_error, r_svds_error, r_error, or_key. rewrite E, S. split; [|split].
  - destruct (assoc c python_eigs); congruence.
  - intros L. destruct (c >=? -100); [destruct (assoc c python_svds); congruence|].
    destruct (c >=? -200); [destruct (assoc (c + 100) python_eigs); cbn [option_map]; congruence|].
    rewrite Z.geb_leb, (proj2 (Z.leb_le _ _) L). destruct (assoc (c + 200) python_eigs); cbn [option_map]; congruence.
  - destruct (assoc c python_eigs); congruence.
Qed.

(** *** C70_r_partial: in R every code of the library stops with a text. *)
Theorem C70_r_partial :
  (forall c, eigs_code c -> c <> -39 -> r_error c <> "") /\
  (forall c, svds_code c -> r_svds_error c <> "" /\ r_svds_error c <> "Unknown error code").
Proof.
  split.
  - intros c H N. destruct C70_python_partial as [P _]. destruct (P c H N) as (t & T & E).
    destruct (C70_same_text c t) as (Q & _). rewrite (Q E). exact T.
  - intros c H. apply svds_listed in H.
    assert (Q : filled (r_svds_error c) && negb (String.eqb (r_svds_error c) "Unknown error code") = true)
      by (revert c H; apply by_list; vm_compute; reflexivity).
    apply andb_true_iff in Q. destruct Q as [Q1 Q2]. split; [apply filled_spec; exact Q1|].
    destruct (String.eqb_spec (r_svds_error c) "Unknown error code"); [discriminate|assumption].
Qed.

Definition known (c : cell) : bool :=
  match c with Text s => filled s && negb (String.eqb s "Unknown error code") | Zeros _ => false end.

(** *** C70_matlab_partial: in MATLAB every code of the library but -6 and -39 has a text of its own. *)
Theorem C70_matlab_partial :
  (forall c, eigs_code c -> c <> -6 -> c <> -39 ->
     exists s, mat_error matlab_eigs c = Text s /\ s <> "" /\ s <> "Unknown error code") /\
  (forall c, svds_code c -> (forall e, In e [-6; -39] -> c <> e - 100 /\ c <> e - 200) ->
     exists s, snd (mat_svds_error c) = Text s /\ s <> "" /\ s <> "Unknown error code").
Proof.
  assert (S : forall k, known k = true -> exists s, k = Text s /\ s <> "" /\ s <> "Unknown error code").
  { intros [s|n] H; [|discriminate]. unfold known in H. apply andb_true_iff in H. destruct H as [H1 H2].
    exists s. split; [reflexivity|]. split; [apply filled_spec; exact H1|].
    destruct (String.eqb_spec s "Unknown error code"); [discriminate|assumption]. }
  split.
  - intros c H N1 N2. apply S. apply eigs_listed in H.
    assert (Q : (c =? -6) || (c =? -39) || known (mat_error matlab_eigs c) = true)
      by (clear N1 N2; revert c H; apply by_list; vm_compute; reflexivity).
    apply Z.eqb_neq in N1, N2. rewrite N1, N2 in Q. exact Q.
  - intros c H N. apply S. apply svds_listed in H.
    destruct (N (-6) (or_introl eq_refl)) as [N1 N2]. destruct (N (-39) (or_intror (or_introl eq_refl))) as [N3 N4].
    assert (Q : (c =? -6 - 100) || (c =? -6 - 200) || (c =? -39 - 100) || (c =? -39 - 200) || known (snd (mat_svds_error c)) = true)
      by (clear N N1 N2 N3 N4; revert c H; apply by_list; vm_compute; reflexivity).
    apply Z.eqb_neq in N1, N2, N3, N4. rewrite N1, N2, N3, N4 in Q. exact Q.
Qed.

(** *** C70_matlab_stages: the errors of a stage name the stage and have the text of that code. *)
Theorem C70_matlab_stages : forall e, eigs_code e ->
  mat_svds_error (e - 100) = ("Error from first stage: ", mat_error matlab_stage e) /\
  mat_svds_error (e - 200) = ("Error from second stage: ", mat_error matlab_stage e).
Proof.
  intros e H. apply eigs_listed in H.
  assert (R : (-100 <=? e) && (e <? 0) = true) by (revert e H; apply by_list; vm_compute; reflexivity).
  apply andb_true_iff in R. destruct R as [R1 R2]. apply Z.leb_le in R1. apply Z.ltb_lt in R2.
  unfold mat_svds_error. rewrite !Z.geb_leb.
  rewrite (proj2 (Z.leb_gt (-100) (e - 100))), (proj2 (Z.leb_gt (-100) (e - 200))) by lia.
  rewrite (proj2 (Z.leb_le (-200) (e - 100))), (proj2 (Z.leb_gt (-200) (e - 200))) by lia.
  replace (e - 100 + 100) with e by lia. replace (e - 200 + 200) with e by lia. split; reflexivity.
Qed.

(** *** C70_named: when the check of the parameters fails, the text names the parameter that is
    wrong, in the three languages (in MATLAB, but for -6). *)
Theorem C70_named : forall meps o p w, let c := ParamsModel.check_input meps o p in
  wrong_parameter c = Some w ->
  (exists t, py_error c = Primme c t /\ mentions w t) /\ mentions w (r_error c) /\
  (c <> -6 -> forall l, l = matlab_eigs \/ l = matlab_stage -> exists t, mat_error l c = Text t /\ mentions w t).
Proof.
  intros meps o p w c H.
  set (has := fun t => match String.index 0 w t with Some _ => true | None => false end).
  assert (HS : forall t, has t = true -> mentions w t)
    by (intros t T; unfold has in T; unfold mentions; destruct (String.index 0 w t); [discriminate|discriminate T]).
  assert (I : In c eigs_list).
  { apply eigs_listed. right. exists meps, o, p. split; [reflexivity|]. intros Z0. rewrite Z0 in H. discriminate. }
  assert (Q : match wrong_parameter c with
              | None => true
              | Some w =>
                let has := fun t => match String.index 0 w t with Some _ => true | None => false end in
                (match py_error c with Primme k t => (k =? c) && has t | KeyError => false end) && has (r_error c)
                && ((c =? -6) || (match mat_error matlab_eigs c with Text t => has t | Zeros _ => false end
                                  && match mat_error matlab_stage c with Text t => has t | Zeros _ => false end))
              end = true).
  { clear H has HS. revert I. generalize c. clear c. apply by_list. vm_compute. reflexivity. }
  rewrite H in Q. cbv zeta in Q. fold has in Q. rewrite !andb_true_iff in Q. destruct Q as [[Q1 Q2] Q3].
  split; [|split; [apply HS; exact Q2|]].
  - destruct (py_error c) as [k t|]; [|discriminate]. apply andb_true_iff in Q1. destruct Q1 as [K T].
    apply Z.eqb_eq in K. subst k. eauto.
  - intros N l L. apply Z.eqb_neq in N. rewrite N in Q3. cbn [orb] in Q3. apply andb_true_iff in Q3.
    destruct Q3 as [Q3 Q4]. destruct L as [-> | ->].
    + destruct (mat_error matlab_eigs c); [eauto|discriminate].
    + destruct (mat_error matlab_stage c); [eauto|discriminate].
Qed.

(** *** C70_all_named: the check answers no other code than those with a parameter, and -39. *)
Theorem C70_all_named : forall meps o p, let c := ParamsModel.check_input meps o p in
  c = 0 \/ c = -39 \/ exists w, wrong_parameter c = Some w.
Proof.
  intros meps o p c. destruct (Z.eq_dec c 0) as [Z0|N]; [left; exact Z0|right].
  assert (I : In c report_order).
  { destruct (check_input_cases meps o p) as [[Z0 _]|(E1 & P & E2 & E & _)]; [contradiction|].
    rewrite <- (enforced_codes meps o p), E, map_app. apply in_or_app. right. left. reflexivity. }
  assert (Q : (c =? -39) || match wrong_parameter c with Some _ => true | None => false end = true)
    by (revert I; generalize c; apply by_list; vm_compute; reflexivity).
  apply orb_true_iff in Q. destruct Q as [Q|Q]; [left; apply Z.eqb_eq; exact Q|right].
  destruct (wrong_parameter c) as [w|]; [eauto|discriminate].
Qed.

Lemma assoc_in : forall X c (l : list (Z * X)) t, assoc c l = Some t -> In (c, t) l.
Proof.
  intros X c l t H. unfold assoc in H. destruct (find _ l) as [[k u]|] eqn:F; [|discriminate]. injection H as <-.
  apply find_some in F. destruct F as [I E]. cbn [fst] in E. apply Z.eqb_eq in E. subst k. exact I.
Qed.

Lemma nodup_inj : forall (l : list (Z * string)), NoDup (map snd l) -> forall a b t, In (a, t) l -> In (b, t) l -> a = b.
Proof.
  induction l as [|[k u] l IH]; intros D a b t A B; [destruct A|]. cbn [map snd] in D. inversion D as [|? ? NI D']; subst.
  destruct A as [A|A], B as [B|B].
  - congruence.
  - injection A as -> ->. exfalso. apply NI. apply (in_map snd) in B. exact B.
  - injection B as -> ->. exfalso. apply NI. apply (in_map snd) in A. exact A.
  - exact (IH D' a b t A B).
Qed.

(** *** C70_distinct: no two codes have the same text. *)
Theorem C70_distinct : forall a b t, py_error a = Primme a t -> py_error b = Primme b t -> a = b.
Proof.
  intros a b t A B. unfold py_error, or_key in A, B.
  destruct (assoc a python_eigs) as [x|] eqn:EA; [|discriminate]. injection A as ->.
  destruct (assoc b python_eigs) as [y|] eqn:EB; [|discriminate]. injection B as ->.
  apply assoc_in in EA, EB. refine (nodup_inj python_eigs _ a b t EA EB).
  assert (N : nodup string_dec (map snd python_eigs) = map snd python_eigs) by (vm_compute; reflexivity).
  rewrite <- N. apply NoDup_nodup.
Qed.

(** *** C70_projection_refuted: a mass matrix with a projection other than Rayleigh-Ritz is rejected
    with a code that no table has: Python raises KeyError instead of the exception of the module, and
    R and MATLAB stop without a text. *)
Theorem C70_projection_refuted : exists meps o p,
  ParamsModel.check_input meps o p = -39 /\
  py_error (-39) = KeyError /\ r_error (-39) = "" /\ mat_error matlab_eigs (-39) = Text "".
Proof.
  exists (e_meps sample_env), sample_out, (accepted_params <+ P_massMatrixMatvec := 5 <+ P_projection := 2).
  repeat split; vm_compute; reflexivity.
Qed.

(** *** C70_matlab_procs_refuted: a wrong number of processes has no text in MATLAB. *)
Theorem C70_matlab_procs_refuted : exists meps o p,
  ParamsModel.check_input meps o p = -6 /\
  forall s, mat_error matlab_eigs (-6) <> Text s /\ snd (mat_svds_error (-106)) <> Text s.
Proof.
  exists (e_meps sample_env), sample_out, (accepted_params <+ P_numProcs := 0).
  split; [vm_compute; reflexivity|]. intros s. split; vm_compute; discriminate.
Qed.

Example C70_case : exists meps o p, ParamsModel.check_input meps o p = -17 /\
  py_error (-17) = Primme (-17) "'maxBasisSize' < 2" /\
  mat_svds_error (-217) = ("Error from second stage: ", Text "maxBasisSize < 2").
Proof.
  exists (e_meps sample_env), sample_out, (accepted_params <+ P_maxBasisSize := 1). repeat split; vm_compute; reflexivity.
Qed.
