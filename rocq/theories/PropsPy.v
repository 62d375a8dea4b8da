(** C63: the Python function [eigsh]. *)
From Coq Require Import ZArith List Bool Lia.
From Verif Require Import Base Values FieldsModel ParamsModel LockProofs PyModel SpecPy.
From Verif Require Import ParamsProofs PropsParams.
Import ListNotations.
Open Scope Z_scope.

Lemma sets_app : forall l1 l2 p, sets p (l1 ++ l2) = sets (sets p l1) l2.
Proof. induction l1 as [|[f v] l1 IH]; intros; cbn; auto. Qed.
Lemma sets_other : forall l p f, ~ In f (map fst l) -> sets p l f = p f.
Proof.
  induction l as [|[g v] l IH]; intros p f H; cbn; auto.
  rewrite IH by (intro; apply H; cbn; auto). apply set_neq. intro; subst. apply H; cbn; auto.
Qed.
Lemma sets_last : forall pre post p f v, ~ In f (map fst post) ->
  sets p (pre ++ (f, v) :: post) f = v.
Proof. intros. rewrite sets_app. cbn. rewrite sets_other by auto. apply set_eq. Qed.

Section Eigsh.
Context {V K : Type}.
Variables (vzero : V) (kzero : K).
Notation setup := (eigsh_setup (V:=V) (K:=K) vzero kzero).
Notation run := (eigsh (V:=V) (K:=K) vzero kzero).

Definition noc_of (a : eigsh_args V K) : nat :=
  match a_lock a with Some (_, l) => Nat.min (length l) (Z.to_nat (a_rows a)) | None => O end.
Definition settled (a : eigsh_args V K) (t : Z) (s : option V) (opts : list (field * Z)) : params :=
  sets (sets (sets (primme_initialize 1) (early_members a t s)) opts) (late_members a).

(** Everything a call that is made went through. *)
Lemma setup_inv : forall a c, setup a = Some c ->
  acceptable a /\ exists t s opts,
    eigsh_target vzero (a_which a) (a_sigma a) = Some (t, s) /\ a_kargs a = Some opts /\
    c_shift c = s /\ c_evals c = repeat vzero (Z.to_nat (a_k a)) /\ c_norms c = repeat vzero (Z.to_nat (a_k a)) /\
    routine_of (a_type a) = Some (c_routine c) /\
    c_evecs c = constraints a ++ guesses a
      ++ repeat (repeat kzero (Z.to_nat (a_rows a))) (Z.to_nat (a_k a) - length (guesses a)) /\
    length (constraints a) = noc_of a /\
    (a_method a = None -> c_params c = settled a t s opts) /\
    (forall m, a_method a = Some (Some m) -> exists r, primme_set_method m (settled a t s opts) = Some (r, c_params c)).
Proof.
  intros a c. unfold eigsh_setup.
  destruct (Z.eqb_spec (a_rows a) (a_cols a)) as [E1|]; cbn [negb]; [|discriminate].
  destruct (match a_M a with Some r => negb (r =? a_rows a) | None => false end) eqn:E2; [discriminate|].
  destruct ((a_k a <=? 0) || (a_k a >? a_rows a)) eqn:E3; [discriminate|].
  apply orb_false_iff in E3. destruct E3 as [E3 E3'].
  destruct (eigsh_target vzero (a_which a) (a_sigma a)) as [[t s]|] eqn:E4; cbn [bind]; [|discriminate].
  destruct (match a_OPinv a with Some (r, c0) => negb (r =? c0) || negb (r =? a_rows a) | None => false end) eqn:E5; [discriminate|].
  cbv zeta. fold (noc_of a).
  destruct (given (a_rows a) (noc_of a) (a_lock a)) as [lk|] eqn:E6; cbn [bind]; [|discriminate].
  destruct (a_kargs a) as [opts|] eqn:E7; cbn [bind]; [|discriminate].
  destruct (routine_of (a_type a)) as [r|] eqn:E8; cbn [bind]; [|discriminate].
  destruct (given (a_rows a) (Z.to_nat (a_k a)) (a_v0 a)) as [gs|] eqn:E9; cbn [bind]; [|discriminate].
  fold (settled a t s opts). intros H.
  assert (LK : lk = constraints a /\ length (constraints a) = noc_of a /\ (forall r l, a_lock a = Some (r, l) -> r = a_rows a)).
  { clear - E6. unfold given, constraints, noc_of in *. destruct (a_lock a) as [[r l]|].
    - destruct (Z.eqb_spec r (a_rows a)); [|discriminate]. injection E6 as <-.
      split; [|split; [rewrite firstn_length; apply Nat.min_comm|intros ? ? X; injection X; intros; subst; auto]].
      destruct (Nat.le_gt_cases (length l) (Z.to_nat (a_rows a))).
      + rewrite Nat.min_l by auto. rewrite !firstn_all2; auto.
      + rewrite Nat.min_r by lia. auto.
    - injection E6 as <-. repeat split; auto. discriminate. }
  assert (GS : gs = guesses a /\ (forall r l, a_v0 a = Some (r, l) -> r = a_rows a)).
  { clear - E9. unfold given, guesses in *. destruct (a_v0 a) as [[r' l]|].
    - destruct (Z.eqb_spec r' (a_rows a)); [|discriminate]. injection E9 as <-.
      split; auto. intros ? ? X; injection X; intros; subst; auto.
    - injection E9 as <-. split; auto. discriminate. }
  destruct LK as (-> & LL & LR). destruct GS as (-> & GR).
  destruct (match a_method a with
            | None => Some (settled a t s opts)
            | Some None => None
            | Some (Some m) => r0 <- primme_set_method m (settled a t s opts) ; Some (snd r0) end) as [p|] eqn:E10;
    cbn [bind] in H; [|discriminate].
  injection H as <-. cbn.
  split.
  - unfold acceptable. rewrite E7. repeat split; auto; try discriminate; try lia.
    + intros r' X. rewrite X in E2. apply negb_false_iff, Z.eqb_eq in E2. auto.
    + intro X. rewrite X in E4. discriminate.
    + intros v X. rewrite X in E4. cbn in E4. destruct (a_sigma a); [discriminate|auto].
    + rewrite H in E5. apply orb_false_iff in E5. destruct E5 as [_ E5]. apply negb_false_iff, Z.eqb_eq in E5. auto.
    + rewrite H in E5. apply orb_false_iff in E5. destruct E5 as [A E5]. apply negb_false_iff, Z.eqb_eq in E5, A. congruence.
    + intro X. rewrite X in E8. discriminate.
    + intro X. rewrite X in E10. discriminate.
  - exists t, s, opts. repeat split; auto.
    + intro X. rewrite X in E10. congruence.
    + intros m X. rewrite X in E10. destruct (primme_set_method m (settled a t s opts)) as [[r' q]|]; [|discriminate].
      exists r'. cbn in E10. congruence.
Qed.

(** The solver is called exactly for acceptable arguments. *)
Theorem C63_accepted : forall a, (exists c, setup a = Some c) <-> acceptable a.
Proof.
  intros a. split; [intros [c H]; apply setup_inv in H; tauto|].
  intros (H1 & H2 & H3 & H4 & H5 & H6 & H7 & H8 & H9 & H10 & H11).
  unfold eigsh_setup. rewrite H1, Z.eqb_refl. cbn [negb]. rewrite <- H1.
  replace (match a_M a with Some r => negb (r =? a_rows a) | None => false end) with false
    by (destruct (a_M a) as [r|]; auto; rewrite (H3 r eq_refl), Z.eqb_refl; auto).
  replace ((a_k a <=? 0) || (a_k a >? a_rows a)) with false
    by (symmetry; apply orb_false_iff; lia).
  assert (T : exists ts, eigsh_target vzero (a_which a) (a_sigma a) = Some ts).
  { destruct (a_which a); cbn; eauto; [|congruence]. rewrite (H5 v eq_refl). eauto. }
  destruct T as [[t s] ->]. cbn [bind].
  replace (match a_OPinv a with Some (r, c0) => negb (r =? c0) || negb (r =? a_rows a) | None => false end) with false
    by (destruct (a_OPinv a) as [[r c]|]; auto; destruct (H6 r c eq_refl) as [-> ->]; rewrite Z.eqb_refl; auto).
  cbv zeta.
  assert (G1 : forall c x, (forall r (l : list (list K)), x = Some (r, l) -> r = a_rows a) -> exists y, given (a_rows a) c x = Some y).
  { intros c [[r l]|] X; cbn; eauto. rewrite (X r l eq_refl), Z.eqb_refl. eauto. }
  destruct (G1 (match a_lock a with Some (_, l) => Nat.min (length l) (Z.to_nat (a_rows a)) | None => 0%nat end) _ H7) as [y ->].
  destruct (G1 (Z.to_nat (a_k a)) _ H8) as [z ->]. cbn [bind].
  destruct (a_kargs a) as [opts|]; [|congruence]. cbn [bind].
  destruct (a_type a); cbn [routine_of bind]; try congruence;
  (destruct (a_method a) as [[m|]|]; cbn [bind]; [|congruence|eauto];
   match goal with |- context [primme_set_method m ?p] => destruct (C01_set_method_result m p) as (r & q & -> & _) end;
   cbn [bind]; eauto).
Qed.

Lemma late_keeps : forall (a : eigsh_args V K) p f,
  In f [P_n; P_numEvals; P_target; P_numTargetShifts; P_targetShifts; P_numOrthoConst; P_eps; P_maxMatvecs] ->
  sets p (late_members a) f = p f.
Proof.
  intros a p f H. apply sets_other. unfold late_members.
  destruct (a_history a), (a_M a), (a_convtest a), (a_v0 a), (a_maxBlockSize a =? 0), (a_minRestartSize a =? 0),
    (a_maxPrevRetain a =? 0); cbn; cbn in H; intro X;
  repeat (destruct H as [H|H]; [subst f; repeat (destruct X as [X|X]; [discriminate X|]); exact X|]); exact H.
Qed.

(** A member of the problem that options leave alone reaches the solver as eigsh set it. *)
Lemma problem_member : forall a c f, setup a = Some c -> In f problem_members ->
  (forall opts, a_kargs a = Some opts -> ~ In f (map fst opts)) ->
  exists t s, eigsh_target vzero (a_which a) (a_sigma a) = Some (t, s) /\ c_shift c = s /\
    c_params c f = sets (sets (primme_initialize 1) (early_members a t s)) (late_members a) f.
Proof.
  intros a c f H I N. apply setup_inv in H. destruct H as (ACC & t & s & opts & T & O & S & _ & _ & _ & _ & _ & M0 & M1).
  exists t, s. split; [auto|]. split; [auto|].
  assert (E : c_params c f = settled a t s opts f).
  { destruct (a_method a) as [[m|]|] eqn:EM.
    - destruct (M1 m eq_refl) as [r R]. eapply C01_presets_keep_problem; eauto.
    - exfalso. destruct ACC as (_ & _ & _ & _ & _ & _ & _ & _ & _ & _ & X). congruence.
    - rewrite M0; auto. }
  rewrite E. unfold settled.
  set (l := late_members a). clearbody l. specialize (N opts O).
  revert N. generalize (sets (primme_initialize 1) (early_members a t s)). clear -l.
  intros p N.
  assert (X : forall l (p q : params), p f = q f -> sets p l f = sets q l f).
  { clear. induction l as [|[g v] l IH]; cbn; auto. intros p q E. apply IH.
    unfold set. destruct (field_eqb g f); auto. }
  apply X. apply sets_other. auto.
Qed.

(** Whether the name is that of an option given in [kargs]. *)
Definition named (a : eigsh_args V K) (f : field) : Prop :=
  exists opts, a_kargs a = Some opts /\ In f (map fst opts).

Ltac early a :=
  rewrite late_keeps by (cbn; tauto); unfold early_members, if_given;
  destruct (a_M a), (a_ncv a), (a_maxiter a), (a_OPinv a), (a_lock a) as [[? ?]|], (a_convtest a); reflexivity.

(** The arrays have the type of the matrix, and matrices of integers are solved in double
    precision. *)
Theorem C63_type : forall a c, setup a = Some c ->
  element (c_routine c) = match a_type a with TInt => TDouble | t => t end.
Proof.
  intros a c H. apply setup_inv in H. destruct H as (_ & t & s & opts & _ & _ & _ & _ & _ & R & _).
  destruct (a_type a); cbn in R; try discriminate; injection R as <-; reflexivity.
Qed.

(** The callbacks find the matrix, and the mass matrix when there is one. *)
Theorem C63_objects : forall a c, setup a = Some c ->
  (~ named a P_matrix -> c_params c P_matrix <> 0) /\
  (~ named a P_massMatrix -> (c_params c P_massMatrix <> 0 <-> a_M a <> None)).
Proof.
  intros a c H.
  assert (P : forall f, In f problem_members -> ~ named a f ->
    exists t s, c_params c f = sets (sets (primme_initialize 1) (early_members a t s)) (late_members a) f).
  { intros f I N. destruct (problem_member a c f H I) as (t & s & _ & _ & E); eauto.
    intros opts O X. apply N. exists opts. auto. }
  assert (LK : forall p f, In f [P_matrix; P_massMatrix] -> sets p (late_members a) f = p f).
  { intros p f I. apply sets_other. unfold late_members, if_given.
    destruct (a_history a), (a_M a), (a_convtest a), (a_v0 a), (a_maxBlockSize a =? 0), (a_minRestartSize a =? 0),
      (a_maxPrevRetain a =? 0); cbn; cbn in I; intro X;
    repeat (destruct I as [I|I]; [subst f; repeat (destruct X as [X|X]; [discriminate X|]); exact X|]); exact I. }
  split; intros N.
  - destruct (P P_matrix ltac:(cbn; tauto) N) as (t & s & ->). rewrite LK by (cbn; tauto).
    unfold early_members, if_given.
    destruct (a_M a), (a_ncv a), (a_maxiter a), (a_OPinv a), (a_lock a) as [[? ?]|], (a_convtest a), s; discriminate.
  - destruct (P P_massMatrix ltac:(cbn; tauto) N) as (t & s & ->). rewrite LK by (cbn; tauto).
    unfold early_members, if_given.
    destruct (a_M a), (a_ncv a), (a_maxiter a), (a_OPinv a), (a_lock a) as [[? ?]|], (a_convtest a), s;
      cbn; split; congruence.
Qed.

(** The problem the solver is given: its order, the number of pairs, tolerance, limit and
    callbacks, unless an option names that member. *)
Theorem C63_problem : forall a c, setup a = Some c ->
  (~ named a P_n -> c_params c P_n = a_rows a) /\
  (~ named a P_numEvals -> c_params c P_numEvals = a_k a) /\
  (~ named a P_eps -> c_params c P_eps = a_tol a) /\
  (~ named a P_maxMatvecs -> forall v, a_maxiter a = Some v -> c_params c P_maxMatvecs = v) /\
  (~ named a P_matrixMatvec -> c_params c P_matrixMatvec <> 0) /\
  (~ named a P_massMatrixMatvec -> (c_params c P_massMatrixMatvec <> 0 <-> a_M a <> None)) /\
  (~ named a P_convTestFun -> (c_params c P_convTestFun <> 0 <-> a_convtest a = true)) /\
  (~ named a P_monitorFun -> (c_params c P_monitorFun <> 0 <-> a_history a = true)).
Proof.
  intros a c H.
  assert (P : forall f, In f problem_members -> ~ named a f ->
    exists t s, c_params c f = sets (sets (primme_initialize 1) (early_members a t s)) (late_members a) f).
  { intros f I N. destruct (problem_member a c f H I) as (t & s & _ & _ & E); eauto.
    intros opts O X. apply N. exists opts. auto. }
  assert (Q : forall f, In f problem_members -> ~ named a f ->
     ~ In f (map fst (late_members a)) -> exists t s, c_params c f = sets (primme_initialize 1) (early_members a t s) f).
  { intros f I N L. destruct (P f I N) as (t & s & E). exists t, s. rewrite E. apply sets_other. auto. }
  assert (F : forall (f : field) (b : bool) pre post, In f problem_members -> ~ named a f ->
     late_members a = pre ++ (if b then [(f, 1)] else []) ++ post -> ~ In f (map fst post) -> ~ In f (map fst pre) ->
     (forall t s, ~ In f (map fst (early_members a t s))) -> primme_initialize 1 f = 0 ->
     c_params c f = if b then 1 else 0).
  { intros f b pre post I N E L1 L0 EE Z0. destruct (P f I N) as (t & s & ->). rewrite E, !sets_app.
    rewrite (sets_other post) by auto. destruct b.
    - cbn [sets]. apply set_eq.
    - cbn [sets]. rewrite sets_other by auto. rewrite sets_other by apply EE. auto. }
  assert (EE : forall f t s, In f [P_matrixMatvec; P_massMatrixMatvec; P_convTestFun; P_monitorFun] ->
     ~ In f (map fst (early_members a t s))).
  { intros f t s I. unfold early_members, if_given.
    destruct (a_M a), s, (a_ncv a), (a_maxiter a), (a_OPinv a), (a_lock a) as [[? ?]|], (a_convtest a); cbn; cbn in I; intro X;
    repeat (destruct I as [I|I]; [subst f; repeat (destruct X as [X|X]; [discriminate X|]); exact X|]); exact I. }
  split; [|split; [|split; [|split; [|split; [|split; [|split]]]]]]; intros N.
  - destruct (P P_n ltac:(cbn; tauto) N) as (t & s & ->). destruct s; early a.
  - destruct (P P_numEvals ltac:(cbn; tauto) N) as (t & s & ->). destruct s; early a.
  - destruct (P P_eps ltac:(cbn; tauto) N) as (t & s & ->). destruct s; early a.
  - intros v Y. destruct (P P_maxMatvecs ltac:(cbn; tauto) N) as (t & s & ->).
    rewrite late_keeps by (cbn; tauto). unfold early_members, if_given. rewrite Y.
    destruct (a_M a), (a_ncv a), (a_OPinv a), (a_lock a) as [[? ?]|], (a_convtest a), s; reflexivity.
  - destruct (P P_matrixMatvec ltac:(cbn; tauto) N) as (t & s & ->).
    unfold late_members. rewrite sets_app, sets_app. rewrite sets_other.
    + cbn [sets]. rewrite set_eq. discriminate.
    + unfold if_given. destruct (a_M a), (a_convtest a), (a_history a), (a_v0 a), (a_maxBlockSize a =? 0), (a_minRestartSize a =? 0),
        (a_maxPrevRetain a =? 0); cbn; intro X; repeat (destruct X as [X|X]; [discriminate X|]); exact X.
  - rewrite (F P_massMatrixMatvec (match a_M a with Some _ => true | None => false end)
      ((if a_history a then [(P_monitor, 1)] else []) ++ [(P_matrixMatvec, 1)])
      ([(P_applyPreconditioner, 1)] ++ (if a_convtest a then [(P_convTestFun, 1)] else [])
       ++ (if a_history a then [(P_monitorFun, 1)] else [])
       ++ if_given (a_v0 a) (fun v => [(P_initSize, Z.min (Z.of_nat (length (snd v))) (a_k a))])
       ++ (if a_maxBlockSize a =? 0 then [] else [(P_maxBlockSize, a_maxBlockSize a)])
       ++ (if a_minRestartSize a =? 0 then [] else [(P_minRestartSize, a_minRestartSize a)])
       ++ (if a_maxPrevRetain a =? 0 then [] else [(P_maxPrevRetain, a_maxPrevRetain a)]))).
    + destruct (a_M a); split; try discriminate; congruence.
    + cbn; tauto.
    + auto.
    + unfold late_members, if_given. rewrite <- !app_assoc. destruct (a_M a); reflexivity.
    + unfold if_given. destruct (a_convtest a), (a_history a), (a_v0 a), (a_maxBlockSize a =? 0), (a_minRestartSize a =? 0),
        (a_maxPrevRetain a =? 0); cbn; intro X; repeat (destruct X as [X|X]; [discriminate X|]); exact X.
    + destruct (a_history a); cbn; intro X; repeat (destruct X as [X|X]; [discriminate X|]); exact X.
    + intros; apply EE; cbn; tauto.
    + reflexivity.
  - rewrite (F P_convTestFun (a_convtest a)
      ((if a_history a then [(P_monitor, 1)] else []) ++ [(P_matrixMatvec, 1)] ++ if_given (a_M a) (fun _ => [(P_massMatrixMatvec, 1)])
       ++ [(P_applyPreconditioner, 1)])
      ((if a_history a then [(P_monitorFun, 1)] else [])
       ++ if_given (a_v0 a) (fun v => [(P_initSize, Z.min (Z.of_nat (length (snd v))) (a_k a))])
       ++ (if a_maxBlockSize a =? 0 then [] else [(P_maxBlockSize, a_maxBlockSize a)])
       ++ (if a_minRestartSize a =? 0 then [] else [(P_minRestartSize, a_minRestartSize a)])
       ++ (if a_maxPrevRetain a =? 0 then [] else [(P_maxPrevRetain, a_maxPrevRetain a)]))).
    + destruct (a_convtest a); split; congruence.
    + cbn; tauto.
    + auto.
    + unfold late_members. rewrite <- !app_assoc. reflexivity.
    + unfold if_given. destruct (a_history a), (a_v0 a), (a_maxBlockSize a =? 0), (a_minRestartSize a =? 0),
        (a_maxPrevRetain a =? 0); cbn; intro X; repeat (destruct X as [X|X]; [discriminate X|]); exact X.
    + unfold if_given. destruct (a_history a), (a_M a); cbn; intro X; repeat (destruct X as [X|X]; [discriminate X|]); exact X.
    + intros; apply EE; cbn; tauto.
    + reflexivity.
  - rewrite (F P_monitorFun (a_history a)
      ((if a_history a then [(P_monitor, 1)] else []) ++ [(P_matrixMatvec, 1)] ++ if_given (a_M a) (fun _ => [(P_massMatrixMatvec, 1)])
       ++ [(P_applyPreconditioner, 1)] ++ (if a_convtest a then [(P_convTestFun, 1)] else []))
      (if_given (a_v0 a) (fun v => [(P_initSize, Z.min (Z.of_nat (length (snd v))) (a_k a))])
       ++ (if a_maxBlockSize a =? 0 then [] else [(P_maxBlockSize, a_maxBlockSize a)])
       ++ (if a_minRestartSize a =? 0 then [] else [(P_minRestartSize, a_minRestartSize a)])
       ++ (if a_maxPrevRetain a =? 0 then [] else [(P_maxPrevRetain, a_maxPrevRetain a)]))).
    + destruct (a_history a); split; congruence.
    + cbn; tauto.
    + auto.
    + unfold late_members. rewrite <- !app_assoc. reflexivity.
    + unfold if_given. destruct (a_v0 a), (a_maxBlockSize a =? 0), (a_minRestartSize a =? 0),
        (a_maxPrevRetain a =? 0); cbn; intro X; repeat (destruct X as [X|X]; [discriminate X|]); exact X.
    + unfold if_given. destruct (a_history a), (a_M a), (a_convtest a); cbn; intro X; repeat (destruct X as [X|X]; [discriminate X|]); exact X.
    + intros; apply EE; cbn; tauto.
    + reflexivity.
Qed.

(** The pairs sought are those documented for [which] and [sigma]: the target and the shift
    the solver is given order the values (C12) as the documentation of eigsh does. *)
Theorem C63_wanted : forall (o : vops V) a c, setup a = Some c ->
  ~ named a P_target -> ~ named a P_numTargetShifts -> ~ named a P_targetShifts ->
  exists t, c_params c P_target = target_code t /\
    (extreme t = false -> c_params c P_numTargetShifts = 1 /\ c_params c P_targetShifts <> 0) /\
    forall s, (extreme t = false -> c_shift c = Some s) ->
      forall x y, key_le o t s x y <-> wanted o vzero (a_which a) (a_sigma a) x y.
Proof.
  intros o a c H N1 N2 N3.
  assert (P : forall f, In f [P_target; P_numTargetShifts; P_targetShifts] -> ~ named a f ->
    exists t s, eigsh_target vzero (a_which a) (a_sigma a) = Some (t, s) /\ c_shift c = s /\
      c_params c f = sets (primme_initialize 1) (early_members a t s) f).
  { intros f I N. destruct (problem_member a c f H) as (t & s & T & S & E).
    - cbn in *; tauto.
    - intros opts O X. apply N. exists opts. auto.
    - exists t, s. rewrite late_keeps in E by (cbn in *; tauto). auto. }
  destruct (P P_target ltac:(cbn; tauto) N1) as (t & s & T & S & E1).
  destruct (P P_numTargetShifts ltac:(cbn; tauto) N2) as (t2 & s2 & T2 & _ & E2).
  destruct (P P_targetShifts ltac:(cbn; tauto) N3) as (t3 & s3 & T3 & _ & E3).
  rewrite T in T2, T3. injection T2 as <- <-. injection T3 as <- <-.
  assert (F1 : c_params c P_target = t).
  { rewrite E1. unfold early_members, if_given.
    destruct (a_M a), s, (a_ncv a), (a_maxiter a), (a_OPinv a), (a_lock a) as [[? ?]|], (a_convtest a); reflexivity. }
  assert (F2 : s <> None -> c_params c P_numTargetShifts = 1 /\ c_params c P_targetShifts <> 0).
  { intros X. rewrite E2, E3. unfold early_members, if_given. destruct s; [|congruence].
    split; destruct (a_M a), (a_ncv a), (a_maxiter a), (a_OPinv a), (a_lock a) as [[? ?]|], (a_convtest a); (reflexivity || discriminate). }
  clear P E1 E2 E3. rewrite F1.
  unfold eigsh_target in T. destruct (a_which a) eqn:W;
    try (injection T as <- <-);
    try (destruct (a_sigma a) as [sg|] eqn:SG; [discriminate|injection T as <- <-]); try discriminate.
  - exists largest_abs. split; [reflexivity|]. split; [intros _; apply F2; destruct (a_sigma a); discriminate|].
    intros s' X x y. specialize (X eq_refl). rewrite S in X. unfold key_le, wanted.
    destruct (a_sigma a); injection X as ->; tauto.
  - exists largest. split; [reflexivity|]. split; [discriminate|]. intros; unfold key_le, wanted; tauto.
  - exists smallest. split; [reflexivity|]. split; [discriminate|]. intros; unfold key_le, wanted; tauto.
  - exists closest_abs. split; [reflexivity|]. split; [intros _; apply F2; destruct (a_sigma a); discriminate|].
    intros s' X x y. specialize (X eq_refl). rewrite S in X. unfold key_le, wanted.
    destruct (a_sigma a); injection X as ->; tauto.
  - exists closest_leq. split; [reflexivity|]. split; [intros _; apply F2; destruct (a_sigma a); discriminate|].
    intros s' X x y. specialize (X eq_refl). rewrite S in X. unfold key_le, wanted.
    destruct (a_sigma a); injection X as ->; tauto.
  - exists closest_geq. split; [reflexivity|]. split; [intros _; apply F2; destruct (a_sigma a); discriminate|].
    intros s' X x y. specialize (X eq_refl). rewrite S in X. unfold key_le, wanted.
    destruct (a_sigma a); injection X as ->; tauto.
  - exists closest_abs. split; [reflexivity|]. split; [intros _; apply F2; discriminate|].
    intros s' X x y. specialize (X eq_refl). rewrite S in X. unfold key_le, wanted. injection X as ->; tauto.
Qed.

(** The arrays: constraints, guesses and room for all the pairs, as many columns as the
    members say; each column as long as the matrix if the user's columns are. *)
Theorem C63_arrays : forall a c, setup a = Some c ->
  ~ named a P_numOrthoConst -> ~ named a P_initSize -> ~ named a P_numEvals -> ~ named a P_n ->
  let noc := Z.to_nat (c_params c P_numOrthoConst) in
  let init := Z.to_nat (c_params c P_initSize) in
  let k := Z.to_nat (c_params c P_numEvals) in
  firstn noc (c_evecs c) = constraints a /\
  firstn init (skipn noc (c_evecs c)) = guesses a /\
  length (c_evecs c) = (noc + k)%nat /\ length (c_evals c) = k /\ length (c_norms c) = k /\
  0 <= c_params c P_numOrthoConst /\ 0 <= c_params c P_initSize <= c_params c P_numEvals /\
  ((forall x, In x (constraints a ++ guesses a) -> length x = Z.to_nat (c_params c P_n)) ->
   forall x, In x (c_evecs c) -> length x = Z.to_nat (c_params c P_n)).
Proof.
  intros a c H N1 N2 N3 N4. destruct (C63_problem a c H) as (PN & PK & _).
  specialize (PN N4). specialize (PK N3).
  assert (P : forall f, In f problem_members -> ~ named a f ->
    exists t s, c_params c f = sets (sets (primme_initialize 1) (early_members a t s)) (late_members a) f).
  { intros f I N. destruct (problem_member a c f H I) as (t & s & _ & _ & E); eauto.
    intros opts O X. apply N. exists opts. auto. }
  destruct (setup_inv a c H) as (ACC & t & s & opts & T & O & S & EV & NM & R & X & LC & _).
  assert (K1 : 1 <= a_k a <= a_rows a) by (destruct ACC; tauto).
  assert (Q1 : c_params c P_numOrthoConst = Z.of_nat (noc_of a)).
  { destruct (P P_numOrthoConst ltac:(cbn; tauto) N1) as (t' & s' & ->). unfold noc_of.
    rewrite late_keeps by (cbn; tauto). unfold early_members, if_given.
    destruct (a_lock a) as [[r l]|].
    - rewrite Nat2Z.inj_min, Z2Nat.id by lia.
      destruct (a_M a), s', (a_ncv a), (a_maxiter a), (a_OPinv a), (a_convtest a); reflexivity.
    - destruct (a_M a), s', (a_ncv a), (a_maxiter a), (a_OPinv a), (a_convtest a); reflexivity. }
  assert (Q2 : c_params c P_initSize = Z.of_nat (length (guesses a))).
  { destruct (P P_initSize ltac:(cbn; tauto) N2) as (t' & s' & ->). unfold guesses, late_members, if_given.
    rewrite !sets_app.
    assert (Z3 : forall p, sets (sets (sets p (if a_maxBlockSize a =? 0 then [] else [(P_maxBlockSize, a_maxBlockSize a)]))
        (if a_minRestartSize a =? 0 then [] else [(P_minRestartSize, a_minRestartSize a)]))
        (if a_maxPrevRetain a =? 0 then [] else [(P_maxPrevRetain, a_maxPrevRetain a)]) P_initSize = p P_initSize).
    { intros p. destruct (a_maxBlockSize a =? 0), (a_minRestartSize a =? 0), (a_maxPrevRetain a =? 0); reflexivity. }
    rewrite Z3. destruct (a_v0 a) as [[r l]|].
    - cbn [sets snd]. rewrite set_eq. rewrite firstn_length, Nat2Z.inj_min, Z2Nat.id by lia. lia.
    - unfold early_members, if_given.
      destruct (a_history a), (a_M a), (a_convtest a), s', (a_ncv a), (a_maxiter a), (a_OPinv a), (a_lock a) as [[? ?]|]; reflexivity. }
  assert (G : (length (guesses a) <= Z.to_nat (a_k a))%nat).
  { unfold guesses. destruct (a_v0 a) as [[r l]|]; [rewrite firstn_length; lia|cbn; lia]. }
  cbv zeta. rewrite Q1, Q2, PK, PN, !Nat2Z.id, X, EV, NM, !repeat_length.
  split; [|split; [|split; [|split; [|split; [|split; [|split]]]]]]; auto; try lia.
  - rewrite <- LC, firstn_app, firstn_all, Nat.sub_diag. cbn. apply app_nil_r.
  - rewrite <- LC, skipn_app, skipn_all, Nat.sub_diag. cbn [skipn app].
    rewrite firstn_app, firstn_all, Nat.sub_diag. cbn. apply app_nil_r.
  - rewrite !app_length, repeat_length, LC. lia.
  - intros Y x I. rewrite app_assoc in I. apply in_app_or in I. destruct I as [I|I]; auto.
    apply repeat_spec in I. subst. apply repeat_length.
Qed.

(** The members eigsh sets after the options. *)
Definition set_afterwards : list field :=
  [P_monitor; P_matrixMatvec; P_massMatrixMatvec; P_applyPreconditioner; P_convTestFun; P_monitorFun;
   P_initSize; P_maxBlockSize; P_minRestartSize; P_maxPrevRetain].

(** Without a preset method, an option reaches the solver with the value given last. *)
Theorem C63_options : forall a c pre f v post, setup a = Some c -> a_method a = None ->
  a_kargs a = Some (pre ++ (f, v) :: post) -> ~ In f (map fst post) -> ~ In f set_afterwards ->
  c_params c f = v.
Proof.
  intros a c pre f v post H M O N1 N2.
  destruct (setup_inv a c H) as (_ & t & s & opts & _ & O' & _ & _ & _ & _ & _ & _ & M0 & _).
  rewrite O in O'. injection O' as <-. rewrite (M0 M). unfold settled.
  rewrite sets_other; [apply sets_last; auto|].
  intro X. apply N2. revert X. clear. unfold late_members, if_given.
  destruct (a_history a), (a_M a), (a_convtest a), (a_v0 a), (a_maxBlockSize a =? 0), (a_minRestartSize a =? 0),
    (a_maxPrevRetain a =? 0); cbn; tauto.
Qed.

(** Without a preset method, so do the arguments for the sizes. *)
Theorem C63_sizes : forall a c, setup a = Some c -> a_method a = None ->
  (a_maxBlockSize a <> 0 -> c_params c P_maxBlockSize = a_maxBlockSize a) /\
  (a_minRestartSize a <> 0 -> c_params c P_minRestartSize = a_minRestartSize a) /\
  (a_maxPrevRetain a <> 0 -> c_params c P_maxPrevRetain = a_maxPrevRetain a) /\
  (forall v, a_ncv a = Some v -> ~ named a P_maxBasisSize -> c_params c P_maxBasisSize = v) /\
  (~ named a P_precondition -> (c_params c P_precondition = 1 <-> a_OPinv a <> None)).
Proof.
  intros a c H M.
  destruct (setup_inv a c H) as (_ & t & s & opts & _ & O & _ & _ & _ & _ & _ & _ & M0 & _).
  rewrite (M0 M). unfold settled.
  assert (NO : forall f, ~ named a f -> ~ In f (map fst opts)).
  { intros f N X. apply N. exists opts. auto. }
  split; [|split; [|split; [|split]]].
  - intros X. apply Z.eqb_neq in X. unfold late_members. rewrite X, !sets_app.
    destruct (a_minRestartSize a =? 0), (a_maxPrevRetain a =? 0); reflexivity.
  - intros X. apply Z.eqb_neq in X. unfold late_members. rewrite X, !sets_app.
    destruct (a_maxPrevRetain a =? 0); reflexivity.
  - intros X. apply Z.eqb_neq in X. unfold late_members. rewrite X, !sets_app. reflexivity.
  - intros v E N. rewrite sets_other.
    + rewrite sets_other by (apply NO; auto). unfold early_members, if_given. rewrite E.
      destruct (a_M a), s, (a_maxiter a), (a_OPinv a), (a_lock a) as [[? ?]|], (a_convtest a); reflexivity.
    + unfold late_members, if_given.
      destruct (a_history a), (a_M a), (a_convtest a), (a_v0 a), (a_maxBlockSize a =? 0), (a_minRestartSize a =? 0),
        (a_maxPrevRetain a =? 0); cbn; intro X; repeat (destruct X as [X|X]; [discriminate X|]); exact X.
  - intros N. rewrite sets_other.
    + rewrite sets_other by (apply NO; auto). unfold early_members, if_given.
      destruct (a_OPinv a);
      destruct (a_M a), s, (a_ncv a), (a_maxiter a), (a_lock a) as [[? ?]|], (a_convtest a);
      (split; [intros X; (discriminate || congruence)|intros X; (reflexivity || congruence)]).
    + unfold late_members, if_given.
      destruct (a_history a), (a_M a), (a_convtest a), (a_v0 a), (a_maxBlockSize a =? 0), (a_minRestartSize a =? 0),
        (a_maxPrevRetain a =? 0); cbn; intro X; repeat (destruct X as [X|X]; [discriminate X|]); exact X.
Qed.

(** What is returned when the solver succeeds: as many pairs as it reports (all those
    asked for with return_unconverged), value, vector and norm of the same pair in the same
    position, the constraints left out. *)
Theorem C63_returned : forall solve a c, setup a = Some c ->
  let l := solve c in
  let found := if a_return_unconverged a then Z.to_nat (a_k a) else Z.to_nat (l_params l P_initSize) in
  l_err l = 0 -> (found <= Z.to_nat (a_k a))%nat ->
  length (l_evals l) = Z.to_nat (a_k a) -> length (l_norms l) = Z.to_nat (a_k a) ->
  length (l_evecs l) = (length (constraints a) + Z.to_nat (a_k a))%nat ->
  exists w v r, run solve a = Returned w v r /\ length w = found /\
    (forall i, (i < found)%nat -> nth_error w i = nth_error (l_evals l) i) /\
    (a_return_eigenvectors a = false -> v = None) /\
    (a_return_eigenvectors a = true -> exists x, v = Some x /\ length x = found /\
       forall i, (i < found)%nat -> nth_error x i = nth_error (l_evecs l) (length (constraints a) + i)) /\
    (a_return_stats a = true -> exists x, r = Some x /\ length x = found /\
       forall i, (i < found)%nat -> nth_error x i = nth_error (l_norms l) i).
Proof.
  intros solve a c H l found E F L1 L2 L3. unfold eigsh. rewrite H. fold l.
  destruct (setup_inv a c H) as (_ & _ & _ & _ & _ & _ & _ & _ & _ & _ & _ & LC & _). unfold noc_of in LC.
  unfold eigsh_finish. rewrite <- LC, E. cbn [Z.eqb negb andb]. cbv zeta. fold found.
  assert (N : forall X (x : list X) b i, (i < found)%nat -> nth_error (slice b (b + found) x) i = nth_error x (b + i)).
  { intros X x b i I. unfold slice. replace (b + found - b)%nat with found by lia.
    transitivity (nth_error (skipn b x) i).
    - rewrite <- (firstn_skipn found (skipn b x)) at 2. 
      destruct (Nat.lt_ge_cases i (length (firstn found (skipn b x)))).
      + now rewrite nth_error_app1.
      + assert (nth_error (firstn found (skipn b x)) i = None) as -> by (apply nth_error_None; auto).
        symmetry. apply nth_error_None. rewrite app_length, !firstn_length, !skipn_length in *. lia.
    - clear. revert x. induction b as [|b IH]; intros x; auto. destruct x; cbn; auto. destruct i; auto. }
  assert (M : forall X (x : list X) b, (b + found <= length x)%nat -> length (slice b (b + found) x) = found).
  { intros X x b I. unfold slice. rewrite firstn_length, skipn_length. lia. }
  do 3 eexists. split; [reflexivity|].
  split; [apply (M _ _ 0%nat); rewrite L1; lia|].
  split; [intros i I; apply (N _ _ 0%nat i I)|].
  split; [intros ->; reflexivity|].
  split; intros ->; eexists; (split; [reflexivity|]).
  - split; [apply M; rewrite L3; lia|]. intros i I. apply N; auto.
  - split; [apply (M _ _ 0%nat); rewrite L2; lia|]. intros i I. apply (N _ _ 0%nat i I).
Qed.

(** An exception of a function of the user, and by default pairs that did not converge,
    raise PrimmeError with the code of the solver; nothing is raised after a success. *)
Theorem C63_raised : forall solve a c, setup a = Some c ->
  let l := solve c in
  (l_err l <> 0 -> l_exception l = true -> run solve a = PrimmeError (l_err l)) /\
  (l_err l = -3 -> a_return_unconverged a = false -> a_raise_for_unconverged a = true ->
     run solve a = PrimmeError (-3)) /\
  (forall e, run solve a = PrimmeError e -> e = l_err l /\ e <> 0).
Proof.
  intros solve a c H l. unfold eigsh. rewrite H. fold l. unfold eigsh_finish. cbv zeta.
  split; [|split].
  - intros E X. apply Z.eqb_neq in E. rewrite E, X. reflexivity.
  - intros E U R. rewrite E, U, R. cbn [Z.eqb negb andb]. destruct (l_exception l); reflexivity.
  - intros e. destruct (negb (l_err l =? 0) && l_exception l) eqn:B1.
    + intros X. injection X as <-. split; auto. apply andb_true_iff in B1. destruct B1 as [B1 _].
      apply negb_true_iff, Z.eqb_neq in B1. auto.
    + destruct ((l_err l =? -3) && negb (a_return_unconverged a) && a_raise_for_unconverged a) eqn:B2; [|discriminate].
      intros X. injection X as <-. split; auto. apply andb_true_iff in B2. destruct B2 as [B2 _].
      apply andb_true_iff in B2. destruct B2 as [B2 _]. apply Z.eqb_eq in B2. lia.
Qed.

(** Any other failure of the solver is not raised: the call returns. *)
Theorem C63_unraised_refuted : forall solve a c, setup a = Some c ->
  let l := solve c in
  l_err l <> -3 -> l_exception l = false -> exists w v r, run solve a = Returned w v r.
Proof.
  intros solve a c H l E X. unfold eigsh. rewrite H. fold l. unfold eigsh_finish. cbv zeta.
  rewrite X, andb_false_r. apply Z.eqb_neq in E. rewrite E. cbn [andb]. eauto.
Qed.
End Eigsh.
