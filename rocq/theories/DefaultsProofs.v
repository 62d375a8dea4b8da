(** Presets, default sizes, seeds and the driver. *)
From Coq Require Import ZArith List Bool Lia Zquot.
From Verif Require Import Base FieldsModel ParamsModel SpecParams ParamsProofs CheckProofs.
Import ListNotations.
Open Scope Z_scope.

(* ---------------------------------------------------------------- *)
(** * Presets *)

Lemma resolve_range : forall m p, (0 <= m <= 15) ->
  let m' := resolve_method m p in m' = 1 \/ 4 <= m' <= 15.
Proof.
  intros m p H. cbv zeta.
  unfold resolve_method, PRIMME_DEFAULT_METHOD, PRIMME_DYNAMIC, PRIMME_DEFAULT_MIN_MATVECS,
    PRIMME_GD_Olsen_plusK, PRIMME_DEFAULT_MIN_TIME, PRIMME_JDQMR_ETol, PRIMME_JDQMR.
  destruct (Z.eqb_spec m 0); [subst; cbn; auto|].
  destruct (Z.eqb_spec m 3); [lia|]. destruct (Z.eqb_spec m 2); [destruct (is_extremal p); lia|]. lia.
Qed.

Lemma resolve_invalid : forall m p, ~ (0 <= m <= 15) -> resolve_method m p = m.
Proof.
  intros m p H.
  unfold resolve_method, PRIMME_DEFAULT_METHOD, PRIMME_DYNAMIC, PRIMME_DEFAULT_MIN_MATVECS,
    PRIMME_GD_Olsen_plusK, PRIMME_DEFAULT_MIN_TIME, PRIMME_JDQMR_ETol, PRIMME_JDQMR.
  destruct (Z.eqb_spec m 0); [lia|].
  destruct (Z.eqb_spec m 3); [lia|]. destruct (Z.eqb_spec m 2); lia.
Qed.

Lemma resolve_dynamic : forall m p, 0 <= m <= 15 ->
  (resolve_method m p = PRIMME_DYNAMIC <-> m = 0 \/ m = 1).
Proof.
  intros m p H.
  unfold resolve_method, PRIMME_DEFAULT_METHOD, PRIMME_DYNAMIC, PRIMME_DEFAULT_MIN_MATVECS,
    PRIMME_GD_Olsen_plusK, PRIMME_DEFAULT_MIN_TIME, PRIMME_JDQMR_ETol, PRIMME_JDQMR.
  destruct (Z.eqb_spec m 0); [subst; cbn; split; auto|].
  destruct (Z.eqb_spec m 3); [lia|]. destruct (Z.eqb_spec m 2); [destruct (is_extremal p); lia|]. lia.
Qed.

Ltac unfold_methods :=
  unfold PRIMME_Arnoldi, PRIMME_GD, PRIMME_GD_plusK, PRIMME_GD_Olsen_plusK,
    PRIMME_JD_Olsen_plusK, PRIMME_RQI, PRIMME_JDQR, PRIMME_JDQMR, PRIMME_JDQMR_ETol,
    PRIMME_STEEPEST_DESCENT, PRIMME_LOBPCG_OrthoBasis, PRIMME_LOBPCG_OrthoBasis_Window,
    PRIMME_DYNAMIC in *.

Lemma method_specific_some : forall m p, m = 1 \/ 4 <= m <= 15 ->
  exists q, method_specific m p = Some q.
Proof.
  intros m p H. unfold method_specific. unfold_methods.
  repeat match goal with
  | |- exists _, (if Z.eqb ?a ?b then _ else _) = _ => destruct (Z.eqb_spec a b); [eauto|]
  end. lia.
Qed.

Lemma method_specific_none : forall m p, ~ (0 <= m <= 15) -> method_specific m p = None.
Proof.
  intros m p H. unfold method_specific. unfold_methods.
  repeat match goal with
  | |- (if Z.eqb ?a ?b then _ else _) = _ => destruct (Z.eqb_spec a b); [lia|]
  end. auto.
Qed.

(** The members every preset leaves decided. *)
Lemma method_specific_decided : forall m p q,
  method_specific m p = Some q -> 1 <= p P_maxBlockSize -> 1 <= p P_numEvals ->
  p P_precondition <> -1 ->
  1 <= q P_maxBlockSize /\ 0 <= q P_maxPrevRetain /\ q P_precondition <> -1 /\
  q P_maxInnerIterations <> - INT_MAX.
Proof.
  intros m p q H B N K. revert H. unfold method_specific. unfold INT_MAX.
  repeat match goal with
  | |- (if ?c then _ else _) = _ -> _ => destruct c
  end; intro H; inversion H; subst q; clear H;
  unfold plusK_retain, leftQ_by_precond, INT_MAX; fields;
  (split; [|split; [|split]]); try lia;
  repeat match goal with
  | |- context [if ?c then _ else _] =>
    match type of c with bool => let E := fresh in destruct c eqn:E end
  end; lia.
Qed.

Lemma method_common_facts : forall m p, 0 <= p P_maxBlockSize ->
  1 <= method_common m p P_maxBlockSize /\ method_common m p P_precondition <> -1 /\
  method_common m p P_numEvals = p P_numEvals.
Proof.
  intros. unfold method_common. fields.
  destruct (Z.eqb_spec (p P_maxBlockSize) 0); destruct (Z.eqb_spec (p P_precondition) (-1));
  try destruct (nonnull (p P_applyPreconditioner)); repeat split; lia.
Qed.

Lemma fill_locking_nonneg : forall p, 0 <= fill_defaults p P_locking.
Proof.
  intros. rewrite fill_locking. unfold filled_locking.
  destruct (Z.geb_spec (p P_locking) 0); [lia|].
  destruct (negb _); [lia|]. destruct (_ >? _); lia.
Qed.

(* ---------------------------------------------------------------- *)
(** * The DYNAMIC preset on its own *)

Lemma dynamic_preset_eq : forall p, dynamic_preset p =
  (let p := plusK_retain (method_common PRIMME_DYNAMIC p) in
   let p := leftQ_by_precond (p <+ P_maxInnerIterations := -1) in
   let p := sets p [(P_LeftX, 1); (P_RightQ, 0); (P_RightX, 0); (P_SkewQ, 0); (P_SkewX, 0)] in
   p <+ P_convTest :=
     (if is_extremal p then primme_adaptive_ETolerance else primme_adaptive)).
Proof. reflexivity. Qed.

Lemma dyn_block : forall p, dynamic_preset p P_maxBlockSize =
  if p P_maxBlockSize =? 0 then 1 else p P_maxBlockSize.
Proof.
  intros; rewrite dynamic_preset_eq; unfold plusK_retain, leftQ_by_precond, method_common;
  fields; reflexivity.
Qed.
Lemma dyn_prec : forall p, dynamic_preset p P_precondition =
  if p P_precondition =? -1 then if nonnull (p P_applyPreconditioner) then 1 else 0
  else p P_precondition.
Proof.
  intros; rewrite dynamic_preset_eq; unfold plusK_retain, leftQ_by_precond, method_common;
  fields; reflexivity.
Qed.
Lemma dyn_retain : forall p, dynamic_preset p P_maxPrevRetain =
  if p P_maxPrevRetain <=? 0 then
    let b := if p P_maxBlockSize =? 0 then 1 else p P_maxBlockSize in
    if ((b =? 1) && (p P_numEvals >? 1)) || nonnull (p P_massMatrixMatvec) then 2 else b
  else p P_maxPrevRetain.
Proof.
  intros; rewrite dynamic_preset_eq; unfold plusK_retain, leftQ_by_precond, method_common;
  fields; reflexivity.
Qed.
Lemma dyn_convTest : forall p, 2 <= dynamic_preset p P_convTest <= 3.
Proof.
  intros; rewrite dynamic_preset_eq. cbv zeta. rewrite set_eq.
  unfold primme_adaptive_ETolerance, primme_adaptive. destruct (is_extremal _); lia.
Qed.

(** Members the DYNAMIC preset may write. *)
Definition dyn_writes : list field :=
  [P_dynamicMethodSwitch; P_maxBlockSize; P_precondition; P_maxPrevRetain;
   P_maxInnerIterations; P_LeftQ; P_LeftX; P_RightQ; P_RightX; P_SkewQ; P_SkewX;
   P_convTest].

Lemma dyn_other : forall p f, ~ In f dyn_writes -> dynamic_preset p f = p f.
Proof.
  intros p f H. rewrite dynamic_preset_eq.
  unfold dyn_writes in H. cbn [In] in H.
  unfold plusK_retain, leftQ_by_precond, method_common, set_if. cbn [sets].
  repeat rewrite set_neq by (intro; subst; apply H; tauto). reflexivity.
Qed.

Ltac notin :=
  let H := fresh in
  clear; intro H; cbn in H; repeat (destruct H as [H|H]; [discriminate H|]); exact H.
Ltac dyn_known :=
  repeat first
    [ rewrite dyn_block | rewrite dyn_prec | rewrite dyn_retain
    | rewrite dyn_other by notin ].

(* ---------------------------------------------------------------- *)
(** * The structure that validation sees *)

Definition prepared (e : driver_env) (o : outputs) (p : params) : params :=
  default_callbacks e (reset_seeds (default_ldOPs e (default_orth e p))).

Definition late_writes : list field :=
  [P_orth; P_ldOPs; P_iseed0; P_iseed1; P_iseed2; P_iseed3; P_convTestFun;
   P_convTestFun_type; P_eps; P_monitorFun; P_monitorFun_type].

Lemma set_if_neq : forall c p f v g, f <> g -> set_if c p f v g = p g.
Proof. intros; unfold set_if; now apply set_neq. Qed.

Lemma callbacks_other : forall e p f,
  ~ In f [P_convTestFun; P_convTestFun_type; P_eps; P_monitorFun; P_monitorFun_type] ->
  default_callbacks e p f = p f.
Proof.
  intros e p f H. cbn [In] in H. unfold default_callbacks.
  do 5 (etransitivity; [apply set_if_neq; intro; subst; apply H; tauto|]). reflexivity.
Qed.

Lemma seeds_other : forall p f, ~ In f [P_iseed0; P_iseed1; P_iseed2; P_iseed3] ->
  reset_seeds p f = p f.
Proof.
  intros p f H. cbn [In] in H. unfold reset_seeds, reseed1.
  do 4 (etransitivity; [apply set_if_neq; intro; subst; apply H; tauto|]). reflexivity.
Qed.

Lemma late_other : forall e p f, f <> P_ldOPs -> f <> P_orth ->
  default_ldOPs e (default_orth e p) f = p f.
Proof.
  intros. unfold default_ldOPs, default_orth.
  etransitivity; [apply set_if_neq; congruence|]. apply set_if_neq; congruence.
Qed.

Lemma prepared_other : forall e o p f, ~ In f late_writes -> prepared e o p f = p f.
Proof.
  intros e o p f H. unfold late_writes in H. cbn [In] in H.
  unfold prepared. rewrite callbacks_other by (cbn; tauto).
  rewrite seeds_other by (cbn; tauto). apply late_other; intro; subst; apply H; tauto.
Qed.

Lemma ldOPs_stage : forall e p, default_ldOPs e (default_orth e p) P_ldOPs =
  if p P_ldOPs =? -1 then
    if e_block e <? INT_MAX
     then Z.min (Z.quot (p P_nLocal + e_block e - 1) (e_block e) * e_block e) (p P_nLocal)
     else p P_nLocal
  else p P_ldOPs.
Proof. intros; unfold default_ldOPs, default_orth; fields; reflexivity. Qed.

Lemma prepared_ldOPs : forall e o p, prepared e o p P_ldOPs =
  default_ldOPs e (default_orth e p) P_ldOPs.
Proof.
  intros; unfold prepared. rewrite callbacks_other by notin. now rewrite seeds_other by notin.
Qed.

Lemma ldOPs_choice : forall b n, 1 <= b -> 0 <= n ->
  Z.min (Z.quot (n + b - 1) b * b) n = n.
Proof.
  intros. rewrite Z.quot_div_nonneg by lia.
  assert (A := Z.div_mod (n + b - 1) b ltac:(lia)).
  assert (B := Z.mod_pos_bound (n + b - 1) b ltac:(lia)). nia.
Qed.

Lemma callbacks_eps : forall e p,
  (default_callbacks e p P_eps = p P_eps /\ (p P_eps <> 0 \/ p P_convTestFun <> 0)) \/
  (default_callbacks e p P_eps = e_default_eps e /\ p P_eps = 0 /\ p P_convTestFun = 0).
Proof.
  intros. unfold default_callbacks. unfold nonnull. fields.
  destruct (Z.eqb_spec (p P_convTestFun) 0); destruct (Z.eqb_spec (p P_eps) 0);
  cbn [negb andb]; auto.
Qed.

Lemma prepared_eps : forall e o p,
  (prepared e o p P_eps = p P_eps /\ (p P_eps <> 0 \/ p P_convTestFun <> 0)) \/
  (prepared e o p P_eps = e_default_eps e /\ p P_eps = 0 /\ p P_convTestFun = 0).
Proof.
  intros. unfold prepared.
  assert (E : forall f, In f [P_eps; P_convTestFun] ->
     reset_seeds (default_ldOPs e (default_orth e p)) f = p f).
  { intros f [<-|[<-|[]]]; rewrite seeds_other by notin; apply late_other; discriminate. }
  rewrite <- (E P_eps) by (cbn; auto). rewrite <- (E P_convTestFun) by (cbn; auto).
  apply callbacks_eps.
Qed.

(* ---------------------------------------------------------------- *)
(** * Default sizes *)

(** [m], [r] are the basis and restart size chosen for block size [b] and [k]
    retained vectors when neither was given. *)
Definition chosen_basis (extremal : bool) (d b k : Z) : Z :=
  if extremal then Z.min d (Z.max (Z.max 15 (4 * b + k)) (2 * 0 + k))
  else Z.min d (Z.max (Z.max 35 (5 * b + k)) (1 * 0 + k)).

Definition chosen_restart (extremal : bool) (n d b k : Z) : Z :=
  let m := chosen_basis extremal d b k in
  let r := if n <=? 3 then d
           else if extremal then Z.quot (5 + 4 * m) 10 else Z.quot (5 + 6 * m) 10 in
  if b >? 1 then
    if k >? 0 then m - b * (1 + Z.quot (m - r - 1 - k) b) - k
    else m - b * (1 + Z.quot (m - r - 1) b)
  else r.

Lemma chosen_sizes_single : forall ext n d k,
  0 <= n -> d <= n -> (d = n \/ 7 <= d) -> 1 <= k <= 2 ->
  let m := chosen_basis ext d 1 k in
  let r := chosen_restart ext n d 1 k in
  0 <= m <= n /\ (n > 2 -> 2 <= m) /\ 0 <= r <= n /\ (n > 2 -> 1 <= r) /\
  (n > m -> r + k < m).
Proof.
  intros ext n d k Hn Hd H7 Hk. cbv zeta.
  unfold chosen_restart. cbv zeta. change (1 >? 1) with false. cbv iota.
  set (m := chosen_basis ext d 1 k).
  assert (M : m = Z.min d (if ext then 15 else 35)).
  { subst m; unfold chosen_basis; destruct ext; lia. }
  assert (0 <= m <= n /\ (n > 2 -> 2 <= m) /\ (d = n \/ 7 <= m) /\ (n <= 3 -> m = n)).
  { rewrite M. destruct ext; lia. }
  pose proof (quot10 (5 + 4 * m) ltac:(lia)).
  pose proof (quot10 (5 + 6 * m) ltac:(lia)).
  destruct (Z.leb_spec n 3); destruct ext; lia.
Qed.

Lemma chosen_sizes_block : forall ext n d b k,
  d <= n -> 35 <= d -> 7 * b <= d -> 1 <= b -> (k = b \/ k = 2) ->
  let m := chosen_basis ext d b k in
  let r := chosen_restart ext n d b k in
  2 <= m <= n /\ 1 <= r <= n /\ r + k < m.
Proof.
  intros ext n d b k Hd H35 H7 Hb Hk. cbv zeta.
  unfold chosen_restart. cbv zeta.
  set (m := chosen_basis ext d b k).
  assert (M : m = if ext then Z.max 15 (4 * b + k) else Z.max 35 (5 * b + k)).
  { subst m; unfold chosen_basis; destruct ext; lia. }
  destruct (Z.leb_spec n 3); [lia|].
  set (r := if ext then Z.quot (5 + 4 * m) 10 else Z.quot (5 + 6 * m) 10).
  assert (B : b <= r /\ r + k < m /\ m <= d).
  { pose proof (quot10 (5 + 4 * m) ltac:(destruct ext; lia)).
    pose proof (quot10 (5 + 6 * m) ltac:(destruct ext; lia)).
    subst r. destruct ext; lia. }
  destruct (Z.gtb_spec b 1).
  - destruct (Z.gtb_spec k 0); [|lia].
    pose proof (restart_rounding m b r k ltac:(lia) ltac:(lia) ltac:(lia)) as R.
    cbv zeta in R. clearbody r m. clear M.
    set (r' := m - b * (1 + Z.quot (m - r - 1 - k) b) - k) in *. clearbody r'. lia.
  - lia.
Qed.

(* ---------------------------------------------------------------- *)
(** * Defaults are accepted by validation *)

(** Members the user may set; everything else is as [primme_initialize] left it. *)
Definition user_fields : list field :=
  [P_n; P_numEvals; P_target; P_numOrthoConst; P_maxBlockSize; P_eps;
   P_matrixMatvec; P_matrixMatvec_type; P_matrix;
   P_massMatrixMatvec; P_massMatrixMatvec_type; P_massMatrix;
   P_applyPreconditioner; P_applyPreconditioner_type; P_preconditioner;
   P_numTargetShifts; P_targetShifts; P_aNorm; P_BNorm; P_invBNorm;
   P_numProcs; P_procID; P_nLocal; P_commInfo; P_globalSumReal; P_globalSumReal_type;
   P_broadcastReal; P_broadcastReal_type; P_outputFile].

Lemma seq_other : forall o p f, f <> P_nLocal -> f <> P_procID ->
  sequential_defaults o p f = p f.
Proof.
  intros. unfold sequential_defaults. cbv zeta.
  etransitivity; [apply set_if_neq; congruence|]. apply set_if_neq; congruence.
Qed.

Lemma seq_nLocal : forall o p,
  sequential_defaults o p P_nLocal =
  if (p P_numProcs <=? 1) && nonnull (o_evals o) && nonnull (o_evecs o)
     && nonnull (o_resNorms o) then p P_n else p P_nLocal.
Proof. intros. unfold sequential_defaults. fields. reflexivity. Qed.

Lemma chosen_basis_eq : forall p, p P_maxBasisSize = 0 -> p P_minRestartSize = 0 ->
  filled_basis p = chosen_basis (is_extremal p) (p P_n - p P_numOrthoConst)
                     (p P_maxBlockSize) (p P_maxPrevRetain).
Proof. intros p A B. unfold filled_basis, default_basis, chosen_basis. now rewrite A, B. Qed.

Lemma chosen_restart_eq : forall p, p P_maxBasisSize = 0 -> p P_minRestartSize = 0 ->
  filled_restart p = chosen_restart (is_extremal p) (p P_n) (p P_n - p P_numOrthoConst)
                     (p P_maxBlockSize) (p P_maxPrevRetain).
Proof.
  intros p A B. unfold filled_restart. rewrite B. change (0 =? 0) with true. cbv iota zeta.
  unfold default_restart, default_restart0, chosen_restart.
  rewrite (is_extremal_ext (p <+ P_maxBasisSize := filled_basis p) p)
    by (rewrite set_neq by discriminate; auto).
  rewrite !set_eq. rewrite !set_neq by discriminate.
  rewrite chosen_basis_eq by auto. reflexivity.
Qed.

Ltac zlia := repeat match goal with x := _ |- _ => clearbody x end; lia.

Lemma defaults_accepted : forall stdout_ptr e o p,
  (forall f, ~ In f user_fields -> p f = primme_initialize stdout_ptr f) ->
  0 < e_meps e <= e_default_eps e -> 1 <= e_block e ->
  p P_eps = 0 \/ e_meps e <= p P_eps ->
  0 <= p P_numEvals <= p P_n ->
  0 <= p P_target <= 5 ->
  (2 <= p P_target -> 0 < p P_numTargetShifts /\ p P_targetShifts <> 0) ->
  p P_matrixMatvec <> 0 ->
  0 <= p P_numOrthoConst <= p P_n ->
  p P_numProcs = 1 \/ (1 < p P_numProcs /\ 0 <= p P_nLocal <= p P_n) ->
  ((p P_maxBlockSize = 0 \/ p P_maxBlockSize = 1)
     /\ (p P_numOrthoConst = 0 \/ 7 <= p P_n - p P_numOrthoConst))
  \/ (1 <= p P_maxBlockSize /\ 35 <= p P_n - p P_numOrthoConst
      /\ 7 * p P_maxBlockSize <= p P_n - p P_numOrthoConst) ->
  o_evals o <> 0 -> o_evecs o <> 0 -> o_badptr o = false -> o_resNorms o <> 0 ->
  exists q, wrapper_prepare e o p = Some q /\
    check_input (e_meps e) o (default_callbacks e (reset_seeds q)) = 0.
Proof.
  intros so e o p INIT EPS BLK UEPS NE TG SH MV NOC PROC SZ OE OV OB OR.
  assert (NULLs : nonnull (o_evals o) && nonnull (o_evecs o) && nonnull (o_resNorms o) = true).
  { unfold nonnull. destruct (Z.eqb_spec (o_evals o) 0); [zlia|].
    destruct (Z.eqb_spec (o_evecs o) 0); [zlia|].
    destruct (Z.eqb_spec (o_resNorms o) 0); [zlia|]. reflexivity. }
  set (S := sequential_defaults o p).
  assert (DYN : S P_dynamicMethodSwitch = -1).
  { unfold S. rewrite seq_other by discriminate. rewrite INIT by notin. reflexivity. }
  unfold wrapper_prepare. fold S. rewrite set_defaults_total. rewrite DYN.
  change (-1 <? 0) with true. cbn [bind].
  eexists; split; [reflexivity|].
  change (default_callbacks e (reset_seeds
     (default_ldOPs e (default_orth e (fill_defaults (fill_defaults (dynamic_preset S)))))))
    with (prepared e o (fill_defaults (fill_defaults (dynamic_preset S)))).
  set (F := fill_defaults (fill_defaults (dynamic_preset S))).
  assert (FF : forall f, F f = fill_defaults (dynamic_preset S) f) by (intro; apply fill_idem).
  (* the values validation sees *)
  assert (SO : forall f, f <> P_nLocal -> f <> P_procID -> S f = p f)
    by (intros; apply seq_other; auto).
  assert (NL : 0 <= S P_nLocal <= p P_n).
  { unfold S. rewrite seq_nLocal.
    rewrite <- !andb_assoc. rewrite (andb_assoc (nonnull _)). rewrite NULLs.
    destruct (Z.leb_spec (p P_numProcs) 1); cbn [andb]; zlia. }
  set (ext := is_extremal p).
  set (d := p P_n - p P_numOrthoConst) in *.
  set (b := if p P_maxBlockSize =? 0 then 1 else p P_maxBlockSize).
  set (D := dynamic_preset S) in *.
  assert (Db : D P_maxBlockSize = b).
  { unfold D. rewrite dyn_block. rewrite !SO by discriminate. reflexivity. }
  assert (Dn : D P_n = p P_n) by (unfold D; rewrite dyn_other by notin; apply SO; discriminate).
  assert (Do : D P_numOrthoConst = p P_numOrthoConst)
    by (unfold D; rewrite dyn_other by notin; apply SO; discriminate).
  assert (De : is_extremal D = ext).
  { unfold ext. apply is_extremal_ext. unfold D. rewrite dyn_other by notin. apply SO; discriminate. }
  set (k := D P_maxPrevRetain) in *.
  assert (Dk : (b = 1 -> 1 <= k <= 2) /\ (k = b \/ k = 2)).
  { subst k. unfold D. rewrite dyn_retain. rewrite !SO by discriminate.
    rewrite (INIT P_maxPrevRetain) by notin.
    change (primme_initialize so P_maxPrevRetain <=? 0) with true. cbv iota zeta.
    fold b. destruct ((b =? 1) && (p P_numEvals >? 1) || nonnull (p P_massMatrixMatvec)); zlia. }
  assert (Dm0 : D P_maxBasisSize = 0).
  { unfold D. rewrite dyn_other by notin. rewrite SO by discriminate. rewrite INIT by notin. reflexivity. }
  assert (Dr0 : D P_minRestartSize = 0).
  { unfold D. rewrite dyn_other by notin. rewrite SO by discriminate. rewrite INIT by notin. reflexivity. }
  set (m := chosen_basis ext d b k).
  set (r := chosen_restart ext (p P_n) d b k).
  assert (Fm : F P_maxBasisSize = m).
  { rewrite FF, fill_basis, chosen_basis_eq by auto. rewrite De, Db, Dn, Do. reflexivity. }
  assert (Fr : F P_minRestartSize = r).
  { rewrite FF, fill_restart, chosen_restart_eq by auto. rewrite De, Db, Dn, Do. reflexivity. }
  assert (SIZES : 0 <= m <= p P_n /\ (p P_n > 2 -> 2 <= m) /\ 0 <= r <= p P_n /\
     (p P_n > 2 -> 1 <= r) /\ (p P_n > m -> r + k < m)).
  { destruct SZ as [[B1 B2]|(B1 & B2 & B3)].
    - assert (b = 1) by (unfold b; clear - B1; destruct (Z.eqb_spec (p P_maxBlockSize) 0); lia).
      subst m r. rewrite H in *. apply chosen_sizes_single; subst d; lia.
    - assert (B : b = p P_maxBlockSize).
      { unfold b. destruct (Z.eqb_spec (p P_maxBlockSize) 0); zlia. }
      pose proof (chosen_sizes_block ext (p P_n) d b k ltac:(subst d; lia) B2
        ltac:(rewrite B; zlia) ltac:(zlia) ltac:(tauto)) as X.
      cbv zeta in X. fold m r in X. zlia. }
  assert (FL : F P_locking = if ext then (if p P_numEvals >? r then 1 else 0) else 1).
  { rewrite FF, fill_locking. unfold filled_locking.
    assert (D P_locking = -1).
    { unfold D. rewrite dyn_other by notin. rewrite SO by discriminate. rewrite INIT by notin. reflexivity. }
    rewrite H. change (-1 >=? 0) with false. cbv iota. rewrite De.
    rewrite chosen_restart_eq by auto. rewrite De, Db, Dn, Do. fold k. fold d. fold r.
    assert (D P_numEvals = p P_numEvals).
    { unfold D. rewrite dyn_other by notin. apply SO; discriminate. }
    rewrite H0. destruct ext; reflexivity. }
  assert (Fb : F P_maxBlockSize = b) by (rewrite FF, fill_other by discriminate; auto).
  assert (Fk : F P_maxPrevRetain = k) by (rewrite FF, fill_other by discriminate; auto).
  assert (Fsame : forall f, ~ In f dyn_writes -> f <> P_nLocal -> f <> P_procID ->
     f <> P_ldevecs -> f <> P_projection -> f <> P_initBasisMode ->
     f <> P_maxBasisSize -> f <> P_minRestartSize -> f <> P_locking -> F f = p f).
  { intros. rewrite FF, fill_other by auto. unfold D. rewrite dyn_other by auto. apply SO; auto. }
  assert (FnL : F P_nLocal = S P_nLocal).
  { rewrite FF, fill_other by discriminate. unfold D. now rewrite dyn_other by notin. }
  assert (Fld : F P_ldevecs = S P_nLocal).
  { rewrite FF, fill_ldevecs. unfold D. rewrite !dyn_other by notin.
    rewrite (SO P_ldevecs) by discriminate. rewrite INIT by notin.
    change (primme_initialize so P_ldevecs) with (-1). change (-1 =? -1) with true.
    destruct (Z.eqb_spec (S P_nLocal) (-1)) as [X|X]; [rewrite X in NL; clear - NL; lia|]. reflexivity. }
  assert (Fpr : F P_projection = 1).
  { rewrite FF, fill_projection. unfold D. rewrite !dyn_other by notin.
    rewrite SO by discriminate. rewrite INIT by notin. reflexivity. }
  assert (FldO : F P_ldOPs = -1).
  { rewrite Fsame; try discriminate; try notin. now rewrite INIT by notin. }
  assert (Fprec : F P_precondition = if nonnull (p P_applyPreconditioner) then 1 else 0).
  { rewrite FF, fill_other by discriminate. unfold D. rewrite dyn_prec.
    rewrite !SO by discriminate. rewrite (INIT P_precondition) by notin. reflexivity. }
  assert (Fct : 2 <= F P_convTest <= 3).
  { rewrite FF, fill_other by discriminate. apply dyn_convTest. }
  assert (Finit : F P_initSize = 0).
  { rewrite Fsame; try discriminate; try notin. now rewrite INIT by notin. }
  assert (Fpl : F P_printLevel = 1).
  { rewrite Fsame; try discriminate; try notin. now rewrite INIT by notin. }
  set (Q := prepared e o F).
  assert (QO : forall f, ~ In f late_writes -> Q f = F f) by (intros; now apply prepared_other).
  assert (QE : Q P_eps = 0 \/ e_meps e <= Q P_eps).
  { assert (FE : F P_eps = p P_eps) by (apply Fsame; try discriminate; notin).
    destruct (prepared_eps e o F) as [[X Y]|(X & Y & Z0)]; fold Q in X; rewrite X.
    - rewrite FE. exact UEPS.
    - right. apply EPS. }
  assert (QL : Q P_ldOPs = S P_nLocal).
  { unfold Q. rewrite prepared_ldOPs, ldOPs_stage. rewrite FldO, FnL.
    change (-1 =? -1) with true. cbv iota.
    destruct (e_block e <? INT_MAX); auto. apply ldOPs_choice; [exact BLK|apply NL]. }
  assert (Qtg : Q P_target = p P_target)
    by (rewrite QO by notin; apply Fsame; try discriminate; notin).
  assert (EXT : ext = false -> 2 <= p P_target).
  { unfold ext, is_extremal, primme_smallest, primme_largest.
    destruct (Z.eqb_spec (p P_target) 0); cbn; [discriminate|].
    destruct (Z.eqb_spec (p P_target) 1); cbn; [discriminate|]. clear - TG n n0; lia. }
  assert (EXT1 : ext = true -> p P_target <= 1).
  { unfold ext, is_extremal, primme_smallest, primme_largest.
    clear. destruct (Z.eqb_spec (p P_target) 0); cbn; [lia|].
    destruct (Z.eqb_spec (p P_target) 1); cbn; [lia|]. discriminate. }
  destruct (check_input_cases (e_meps e) o Q) as [[A _]|(E1 & P & E2 & A & HP & _)]; auto.
  exfalso.
  assert (IN : In (check_input (e_meps e) o Q, P) (enforced (e_meps e) o Q))
    by (rewrite A; apply in_or_app; right; left; reflexivity).
  revert IN HP. generalize (check_input (e_meps e) o Q). clear A E1 E2. intros c IN HP.
  unfold enforced, wants_shifts in IN.
  rewrite !(QO P_n), !(QO P_nLocal), !(QO P_numProcs), !(QO P_matrixMatvec),
    !(QO P_applyPreconditioner), !(QO P_precondition), !(QO P_numEvals),
    !(QO P_numOrthoConst), !(QO P_maxBasisSize), !(QO P_minRestartSize), !(QO P_maxBlockSize),
    !(QO P_maxPrevRetain), !(QO P_initSize), !(QO P_locking), !(QO P_printLevel),
    !(QO P_convTest), !(QO P_relTolBase), !(QO P_ldevecs), !(QO P_massMatrixMatvec),
    !(QO P_projection), !(QO P_numTargetShifts), !(QO P_targetShifts) in IN by notin.
  rewrite Qtg, QL, FnL, Fld, Fpr, Fprec, Fm, Fr, FL, Fb, Fk, Finit, Fpl in IN.
  rewrite !(Fsame P_n), !(Fsame P_numProcs), !(Fsame P_matrixMatvec),
    !(Fsame P_applyPreconditioner), !(Fsame P_numEvals), !(Fsame P_numOrthoConst),
    !(Fsame P_massMatrixMatvec), !(Fsame P_numTargetShifts), !(Fsame P_targetShifts) in IN
    by (try discriminate; notin).
  assert (b >= 1) by (unfold b; clear - SZ; destruct (Z.eqb_spec (p P_maxBlockSize) 0); lia).
  assert (LOCK : (if ext then if p P_numEvals >? r then 1 else 0 else 1) = 0 ->
     ext = true /\ p P_numEvals <= r).
  { clear. destruct ext; [|lia]. destruct (Z.gtb_spec (p P_numEvals) r); lia. }
  assert (LOCK0 : (if ext then if p P_numEvals >? r then 1 else 0 else 1) >= 0).
  { clear. destruct ext; [|lia]. destruct (p P_numEvals >? r); lia. }
  set (L := if ext then if p P_numEvals >? r then 1 else 0 else 1) in *.
  assert (PREC : p P_applyPreconditioner = 0 ->
    (if nonnull (p P_applyPreconditioner) then 1 else 0) = 0).
  { intros ->. reflexivity. }
  clearbody L m r k b.
  assert (NP : 1 <= p P_numProcs) by (clear - PROC; lia).
  assert (K0 : 1 <= k) by (clear - Dk H; lia).
  cbn [In] in IN.
  repeat (destruct IN as [IN|IN]; [injection IN as <- <-;
    first [ solve [clear - HP NL; lia] | solve [clear - HP NP; lia]
          | solve [exact (MV HP)] | solve [clear - HP NE; lia] 
          | solve [clear - HP QE; lia] | solve [clear - HP TG; lia]
          | solve [clear - HP NOC; lia] | solve [clear - HP SIZES NE; lia]
          | solve [clear - HP SIZES K0; lia] | solve [clear - HP H; lia]
          | solve [clear - HP K0; lia] | solve [clear - HP; lia]
          | solve [clear - HP Fct; lia]
          | solve [clear - HP OE; congruence] | solve [clear - HP OR; congruence]
          | solve [clear - HP OV OB; destruct HP; congruence]
          | solve [clear - HP; destruct HP; congruence]
          | solve [clear - HP SH; lia]
          | idtac ] | ]); try contradiction.
  - destruct HP as [X Y]. rewrite PREC in Y by auto. clear - Y; lia.
  - destruct HP as [X Y]. destruct (LOCK X) as [_ Z0]. clear - Y Z0; lia.
  - destruct HP as [X Y]. destruct (LOCK X) as [X1 Z0]. pose proof (EXT1 X1). clear - Y H0; lia.
Qed.

(* ---------------------------------------------------------------- *)
(** * Seeds *)

Lemma seed_range : forall r i, 0 <= r -> 0 <= seed_of_rank r i <= 4095.
Proof.
  intros r i H. unfold seed_of_rank.
  assert (A : forall x, 0 <= x -> 0 <= Z.rem x 4096 <= 4095).
  { intros x Hx. pose proof (Z.rem_bound_pos x 4096 Hx ltac:(lia)). lia. }
  assert (B : forall x, 0 <= x -> 0 <= Z.quot x 4096) by (intros; apply Z.quot_pos; lia).
  destruct i as [|[|[|i]]]; apply A; try lia.
  - pose proof (B r H). lia.
  - pose proof (B _ (B r H)). lia.
  - pose proof (B _ (B _ (B r H))). lia.
Qed.

Lemma seed_odd : forall r i, 0 <= r -> (3 <= i)%nat -> Z.odd (seed_of_rank r i) = true.
Proof.
  intros r i H Hi. destruct i as [|[|[|i]]]; try lia. unfold seed_of_rank.
  set (x := Z.quot _ 4096).
  assert (0 <= x).
  { subst x. repeat apply Z.quot_pos; lia. }
  rewrite Z.rem_mod_nonneg by lia.
  rewrite Z.odd_spec. exists (x mod 2048).
  replace 4096 with (2 * 2048) by lia.
  pose proof (Z.div_mod (2 * x + 1) (2 * 2048) ltac:(lia)).
  pose proof (Z.mod_pos_bound (2 * x + 1) (2 * 2048) ltac:(lia)).
  pose proof (Z.div_mod x 2048 ltac:(lia)).
  pose proof (Z.mod_pos_bound x 2048 ltac:(lia)).
  set (q1 := (2 * x + 1) / (2 * 2048)) in *. set (q2 := x / 2048) in *.
  assert (q1 = q2) by nia. lia.
Qed.

Lemma seed_decode : forall r, 0 <= r < 2048 * 4096 * 4096 * 4096 ->
  r = seed_of_rank r 0 + 4096 * ((seed_of_rank r 1 - 1) mod 4096
      + 4096 * ((seed_of_rank r 2 - 2) mod 4096 + 4096 * ((seed_of_rank r 3 - 1) / 2))).
Proof.
  intros r H. unfold seed_of_rank.
  rewrite !Z.quot_div_nonneg by
    (try lia; repeat first [apply Z.quot_pos | apply Z.div_pos]; lia).
  set (a := r / 4096). set (b := a / 4096). set (c := b / 4096).
  assert (0 <= a) by (subst a; apply Z.div_pos; lia).
  assert (0 <= b) by (subst b; apply Z.div_pos; lia).
  assert (0 <= c) by (subst c; apply Z.div_pos; lia).
  rewrite !Z.rem_mod_nonneg by lia.
  assert (A : forall x k, (((x + k) mod 4096) - k) mod 4096 = x mod 4096).
  { intros. rewrite Zminus_mod_idemp_l. f_equal. lia. }
  rewrite !A.
  pose proof (Z.div_mod r 4096 ltac:(lia)) as R. fold a in R.
  pose proof (Z.div_mod a 4096 ltac:(lia)) as Ra. fold b in Ra.
  pose proof (Z.div_mod b 4096 ltac:(lia)) as Rb. fold c in Rb.
  pose proof (Z.mod_pos_bound r 4096 ltac:(lia)).
  pose proof (Z.mod_pos_bound a 4096 ltac:(lia)).
  pose proof (Z.mod_pos_bound b 4096 ltac:(lia)).
  assert (c < 2048) by lia.
  rewrite (Z.mod_small (2 * c + 1)) by lia.
  replace (2 * c + 1 - 1) with (c * 2) by lia. rewrite Z.div_mul by lia. lia.
Qed.

Lemma reset_seeds_val : forall p,
  let pick f i := if (p f <? 0) || (p f >? 4095) then seed_of_rank (p P_procID) i else p f in
  reset_seeds p P_iseed0 = pick P_iseed0 0%nat /\ reset_seeds p P_iseed1 = pick P_iseed1 1%nat /\
  reset_seeds p P_iseed2 = pick P_iseed2 2%nat /\ reset_seeds p P_iseed3 = pick P_iseed3 3%nat.
Proof.
  intros. unfold pick, reset_seeds, reseed1. fields. auto.
Qed.
