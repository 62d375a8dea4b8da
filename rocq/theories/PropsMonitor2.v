(** C61: the reports of locked pairs, and of the outer iterations. *)
From Verif Require Import Base Values PermModel PermProofs RitzModel LockModel LockProofs
  MonitorModel SpecMonitor PropsMonitor.
From Coq Require Import List Arith ZArith Bool Lia Permutation.
Import ListNotations.

Lemma upd_twice : forall A (l : list A) i u v, upd (upd l i u) i v = upd l i v.
Proof. induction l as [|a l IH]; intros [|i] u v; simpl; auto. rewrite IH. auto. Qed.

Lemma put_put : forall A (l : list A) i u v, i < length l -> put (upd l i u) i v = put l i v.
Proof.
  intros. rewrite !put_some by (rewrite ?length_upd; auto). rewrite upd_twice. auto.
Qed.

(** The insertion overwrites the cell that was written for the report. *)
Lemma insert_array_over : forall A (a : list A) n i u v, i <= n -> n < length a ->
  insert_array (upd a n u) n i v = insert_array a n i v.
Proof.
  intros A a n i u v Hi Hn. unfold insert_array. destruct (n - i) as [|c] eqn:E; cbn [shift_up bind].
  - replace i with n by lia. apply put_put. auto.
  - replace (i + c + 1) with n by lia. replace (get (upd a n u) (i + c)) with (get a (i + c)).
    2:{ unfold get. rewrite nth_error_upd_neq by lia. auto. }
    destruct (get a (i + c)); [|reflexivity]. cbn [bind]. rewrite put_put by auto. reflexivity.
Qed.

Section Locked.
Context {R X : Type} (o : vops R).
Variable same : bool.
Variable conv : R -> R.
Variable nonneg : R -> bool.
Variable zero : R.
Notation loopR := (lock_loop_r same conv nonneg zero o).
Notation roundR := (lock_round_r same conv nonneg zero o).
Notation runR := (lock_run_r same conv nonneg zero o).
Notation cand := (@cand R R X).
Notation look := (look same conv).

Lemma scan_le : forall t (shifts : list R) cs v evals n i,
  scan o t shifts 0 cs v evals n = Some i -> i <= n.
Proof.
  induction n as [|k IH]; intros i E; cbn [scan] in E; [injection E as <-; auto|].
  apply SelectProofs.bind_some in E. destruct E as (e & _ & E).
  assert (forall b, (if b : bool then Some (S k) else scan o t shifts 0 cs v evals k) = Some i -> i <= S k) as D.
  { intros [|] C; [injection C as <-; auto|apply IH in C; lia]. }
  destruct t; try (apply D in E; exact E);
    (apply SelectProofs.bind_some in E; destruct E as (c & _ & E);
     apply SelectProofs.bind_some in E; destruct E as (s & _ & E); apply D in E; exact E).
Qed.

Lemma sort_over : forall t (shifts : list R) v evals nv (norms : list R) f flags perm n u,
  n < length flags ->
  insertionSort o t shifts v evals nv norms f (upd flags n u) perm n 0
  = insertionSort o t shifts v evals nv norms f flags perm n 0.
Proof.
  intros t shifts v evals nv norms f flags perm n u H1. unfold insertionSort.
  destruct (scan _ _ _ _ _ _ _ _) as [i|] eqn:E; [|reflexivity]. cbn [bind].
  apply scan_le in E.
  destruct (insert_array evals n i v); [|reflexivity]. cbn [bind].
  destruct (insert_array norms n i nv); [|reflexivity]. cbn [bind].
  destruct (insert_array perm n i n); [|reflexivity]. cbn [bind].
  rewrite insert_array_over by auto. reflexivity.
Qed.

(** The report of the pair that came after the pairs [old]. *)
Definition one_locked (rep : report) (old : list cand) (c : cand) : Prop :=
  locked_documented look rep (length old) (c_val c) (c_norm c) (c_flag c) /\ r_inner rep = None /\
  (* the cells before are the pairs locked before, value, norm and flag of each together *)
  exists p, Permutation p old /\ forall i ci, nth_error p i = Some ci ->
    cell look (r_levals rep) i (c_val ci) /\ cell look (r_lnorms rep) i (c_norm ci) /\
    exists lf, r_lflags rep = Some lf /\ nth_error lf i = Some (c_flag ci).

Definition each_locked (tr : list report) (H : list cand) : Prop :=
  length tr = length H /\
  forall k c rep, nth_error H k = Some c -> nth_error tr k = Some rep -> one_locked rep (firstn k H) c.

Lemma gather_permutation : forall (c0 : cand) H p, is_perm p (length H) -> Permutation (gather c0 H p) H.
Proof.
  intros c0 H p HP. unfold is_perm in HP. unfold gather.
  rewrite (Permutation_map (fun k => nth k H c0) HP).
  assert (E : map (fun k => nth k H c0) (seq 0 (length H)) = H); [|rewrite E; auto].
  clear. induction H as [|a H IH]; [reflexivity|]. simpl. f_equal.
  rewrite <- seq_shift, map_map. exact IH.
Qed.

Lemma map_nth_inv : forall A C (f : A -> C) (l : list A) i x, nth_error l i = Some x ->
  nth_error (map f l) i = Some (f x).
Proof. intros. rewrite nth_error_map, H. reflexivity. Qed.

(** A report made in a state where [H] are locked, and the next is [c]. *)
Lemma report_of_state : forall t shifts d (st : @locked R R X) H numEvals c norms1 flags1,
  linv o t shifts d st H -> sizes st numEvals -> l_num st < numEvals ->
  nth_error (l_evals st) (l_num st) = Some (c_val c) ->
  norms1 = upd (l_norms st) (l_num st) (c_norm c) -> flags1 = upd (l_flags st) (l_num st) (c_flag c) ->
  one_locked (locked_call same conv nonneg zero (l_evals st) (S (l_num st)) flags1 norms1) H c.
Proof.
  intros t shifts d st H numEvals c norms1 flags1 HI HS Hn Ev -> ->.
  destruct HS as [SZ1 [SZ2 [SZ3 [SZ4 SZ5]]]].
  assert (HN := li_num _ _ _ _ _ _ HI). assert (HP := li_perm _ _ _ _ _ _ HI).
  unfold one_locked, locked_documented, locked_call, monitorFun.
  cbn [r_event r_nlocked r_levals r_lnorms r_lflags r_inner].
  rewrite <- HN. split; [|split; [reflexivity|]].
  - split; [reflexivity|]. split; [reflexivity|].
    split; [apply astype_shows with (same := same); [lia|exact Ev]|].
    split; [apply astype_shows with (same := same); [lia|apply nth_error_upd_eq; lia]|].
    eexists. split; [reflexivity|]. apply nth_error_upd_eq. lia.
  - exists (gather c H (firstn (l_num st) (l_perm st))).
    split; [apply gather_permutation; rewrite <- HN; exact HP|].
    intros i ci Hi.
    assert (Li : i < l_num st).
    { assert (i < length (gather c H (firstn (l_num st) (l_perm st)))) by (apply nth_error_Some; congruence).
      unfold gather in H0. rewrite map_length, firstn_length in H0. lia. }
    assert (F : forall A (l l' : list A), firstn (l_num st) l = l' -> forall x, nth_error l' i = Some x -> nth_error l i = Some x).
    { intros A l l' <- x. rewrite LockProofs.nth_error_firstn.
      destruct (Nat.ltb_spec i (l_num st)); [auto|lia]. }
    split; [|split].
    + apply astype_shows with (same := same); [lia|].
      apply (F _ _ _ (li_evals _ _ _ _ _ _ HI c)). apply map_nth_inv. exact Hi.
    + apply astype_shows with (same := same); [lia|]. rewrite nth_error_upd_neq by lia.
      apply (F _ _ _ (li_norms _ _ _ _ _ _ HI c)). apply map_nth_inv. exact Hi.
    + eexists. split; [reflexivity|]. rewrite nth_error_upd_neq by lia.
      apply (F _ _ _ (li_flags _ _ _ _ _ _ HI c)). apply map_nth_inv. exact Hi.
Qed.

Lemma each_snoc : forall tr H c rep, each_locked tr H -> one_locked rep H c ->
  each_locked (tr ++ [rep]) (H ++ [c]).
Proof.
  intros tr H c rep [L E] O. split; [rewrite !app_length; simpl; lia|].
  intros k c' rep' H1 H2.
  assert (k < length (H ++ [c])) as Lk by (apply nth_error_Some; congruence).
  rewrite app_length in Lk. simpl in Lk.
  destruct (Nat.eq_dec k (length H)) as [->|Ne].
  - rewrite nth_error_app2, Nat.sub_diag in H1 by lia. rewrite nth_error_app2 in H2 by lia.
    rewrite L, Nat.sub_diag in H2. injection H1 as <-. injection H2 as <-.
    rewrite firstn_app, firstn_all, Nat.sub_diag. simpl. rewrite app_nil_r. exact O.
  - rewrite nth_error_app1 in H1, H2 by lia. rewrite firstn_app.
    replace (k - length H) with 0 by lia. simpl. rewrite app_nil_r. apply E; auto.
Qed.

Lemma loop_reports : forall t shifts d numEvals n0 rem k st H tr,
  shifts <> [] \/ extreme t = true ->
  linv o t shifts d st H -> sizes st numEvals ->
  l_num st <= n0 + k -> n0 + k + length rem <= numEvals ->
  (forall j (c : cand), nth_error rem j = Some c ->
     nth_error (l_norms st) (n0 + k + j) = Some (c_norm c) /\
     nth_error (l_evecs st) (n0 + k + j) = Some (c_vec c)) ->
  (forall j c, nth_error (filter is_locked rem) j = Some c ->
     nth_error (l_evals st) (l_num st + j) = Some (c_val c)) ->
  each_locked tr H ->
  exists st' tr', loopR t shifts numEvals n0 k (map c_flag rem) st tr = Some (st', tr') /\
    lock_loop o t shifts numEvals n0 k (map c_flag rem) st = Some st' /\
    each_locked tr' (H ++ filter is_locked rem).
Proof.
  induction rem as [|c rem IH]; intros k st H tr Hsh HI HS Hk Hlen Hnv Hev Htr.
  - exists st, tr. simpl. rewrite app_nil_r. auto.
  - simpl length in Hlen. pose proof HS as [SZ1 [SZ2 [SZ3 [SZ4 SZ5]]]].
    destruct (is_locked c) eqn:EL.
    + assert (EF : negb (is_unconverged (c_flag c)) = true) by exact EL.
      (* the state after this pair *)
      destruct (lock_loop_spec o t shifts d numEvals n0 [c] k st H) as (st1 & E1 & I1 & S1); auto.
      { simpl. lia. }
      { intros [|j] c' Hj; [|destruct j; discriminate]. apply Hnv. exact Hj. }
      { cbn [filter]. rewrite EL. intros [|j] c' Hj; [|destruct j; discriminate].
        apply Hev. cbn [filter]. rewrite EL. exact Hj. }
      cbn [filter] in I1, Hev |- *. rewrite EL in I1, Hev |- *.
      destruct (Hnv 0 c eq_refl) as [N1 N2]. rewrite Nat.add_0_r in N1, N2.
      assert (N3 := Hev 0 c eq_refl). rewrite Nat.add_0_r in N3.
      cbn [map lock_loop] in E1. cbn [map lock_loop lock_loop_r]. rewrite EF in *.
      destruct (Nat.ltb_spec (l_num st) numEvals) as [Ln|]; [|lia]. cbn [andb] in *.
      unfold get in *. rewrite N1 in *. cbn [bind] in *. rewrite put_some in * by lia. cbn [bind] in *.
      rewrite N3 in *. cbn [bind] in *. rewrite N2 in *. cbn [bind] in *.
      rewrite put_some in * by lia. cbn [bind] in *. rewrite put_some by lia. cbn [bind].
      rewrite sort_over by lia.
      destruct (insertionSort_spec o t shifts d (c_val c) (l_evals st) (c_norm c)
                 (upd (l_norms st) (l_num st) (c_norm c)) (c_flag c) (l_flags st) (l_perm st) (l_num st)) as
        [i [ev' [no' [fl' [pe' [E [Hi [L1 [L2 [L3 [L4 [F1 [F2 [F3 [F4 [R1 [R2 [R3 O]]]]]]]]]]]]]]]]]];
        auto; rewrite ?length_upd; try lia.
      rewrite E in *. cbn [bind] in *. injection E1 as <-.
      edestruct (IH (S k) (mkL ev' no' fl' pe' (upd (l_evecs st) (l_num st) (c_vec c)) (S (l_num st))) (H ++ [c])
         (tr ++ [locked_call same conv nonneg zero (l_evals st) (S (l_num st))
                   (upd (l_flags st) (l_num st) (c_flag c)) (upd (l_norms st) (l_num st) (c_norm c))]))
        as (st' & tr' & J1 & J2 & J3); auto.
      * cbn [l_num]. lia.
      * lia.
      * intros j c' Hj. destruct (Hnv (S j) c' Hj) as [M1 M2]. cbn [l_norms l_evecs].
        replace (n0 + S k + j) with (n0 + k + S j) by lia. split.
        -- rewrite R2 by lia. rewrite nth_error_upd_neq by lia. auto.
        -- rewrite nth_error_upd_neq by lia. auto.
      * cbn [l_evals l_num]. intros j c' Hj. rewrite R1 by lia.
        specialize (Hev (S j) c' Hj). rewrite <- Hev. f_equal. lia.
      * apply each_snoc; [auto|]. eapply report_of_state; eauto.
      * exists st', tr'. rewrite <- app_assoc in J3. auto.
    + assert (EF : negb (is_unconverged (c_flag c)) = false) by exact EL.
      cbn [filter map lock_loop lock_loop_r] in *. rewrite EL in *. rewrite EF. cbn [andb].
      apply IH; auto; try lia. intros j c' Hj. destruct (Hnv (S j) c' Hj).
      replace (n0 + S k + j) with (n0 + k + S j) by lia. auto.
Qed.

Lemma round_reports : forall t shifts d numEvals st H cands tr,
  shifts <> [] \/ extreme t = true ->
  linv o t shifts d st H -> sizes st numEvals ->
  length H + length cands <= numEvals -> each_locked tr H ->
  exists st' tr', roundR t shifts numEvals st cands tr = Some (st', tr') /\
    lock_round o t shifts numEvals st cands = Some st' /\
    each_locked tr' (H ++ filter is_locked cands).
Proof.
  intros t shifts d numEvals st H cands tr Hsh HI HS HB Htr.
  destruct HS as [SZ1 [SZ2 [SZ3 [SZ4 SZ5]]]].
  pose proof (li_num _ _ _ _ _ _ HI) as HN.
  unfold lock_round, lock_round_r.
  destruct (write_from_spec _ (map c_vec cands) (l_evecs st) (l_num st)) as [ev1 [E1 [L1 [G1 F1]]]].
  { rewrite map_length. lia. }
  destruct (write_from_spec _ (map c_norm cands) (l_norms st) (l_num st)) as [no1 [E2 [L2 [G2 F2]]]].
  { rewrite map_length. lia. }
  destruct (fill_evals_spec cands (l_evals st) (l_num st) numEvals 0) as [el1 [E3 [L3 [F3 G3]]]]; auto; try lia.
  rewrite E1. cbn [bind]. rewrite E2. cbn [bind]. rewrite E3. cbn [bind fst snd].
  rewrite Nat.add_0_r in *.
  apply loop_reports with (d := d); auto; simpl l_num; try lia.
  - constructor; simpl l_num; simpl l_evals; simpl l_norms; simpl l_flags; simpl l_perm; simpl l_evecs; auto.
    + apply (li_perm _ _ _ _ _ _ HI).
    + intros c0. rewrite <- (li_evals _ _ _ _ _ _ HI c0). apply firstn_same; auto.
    + intros c0. rewrite <- (li_norms _ _ _ _ _ _ HI c0). apply firstn_same; auto.
    + intros c0. apply (li_flags _ _ _ _ _ _ HI).
    + rewrite <- (li_vecs _ _ _ _ _ _ HI). apply firstn_same; auto.
    + intros L HC. rewrite (firstn_same _ el1 (l_evals st)); auto. apply (li_ord _ _ _ _ _ _ HI); auto.
  - unfold sizes; simpl. repeat split; lia.
  - intros j c Hc. simpl. rewrite Nat.add_0_r. split.
    + apply G2. rewrite nth_error_map, Hc. auto.
    + apply G1. rewrite nth_error_map, Hc. auto.
Qed.

Lemma run_reports : forall t shifts d numEvals rounds st H tr,
  shifts <> [] \/ extreme t = true ->
  linv o t shifts d st H -> sizes st numEvals ->
  rounds_fit numEvals (length H) rounds -> each_locked tr H ->
  exists st' tr', runR t shifts numEvals st rounds tr = Some (st', tr') /\
    lock_run o t shifts numEvals st rounds = Some st' /\
    each_locked tr' (H ++ filter is_locked (concat rounds)).
Proof.
  induction rounds as [|cs rest IH]; intros st H tr Hsh HI HS HF Htr; cbn [lock_run lock_run_r concat filter].
  - exists st, tr. rewrite app_nil_r. auto.
  - destruct HF as [HF1 HF2].
    destruct (lock_round_spec o t shifts d numEvals st H cs) as [st1 [E [I1 S1]]]; auto.
    destruct (round_reports t shifts d numEvals st H cs tr) as (st2 & tr1 & E2 & E3 & T1); auto.
    rewrite E in E3. injection E3 as <-.
    rewrite E, E2. cbn [bind fst snd].
    destruct (IH st1 (H ++ filter is_locked cs) tr1) as (st3 & tr2 & J1 & J2 & J3); auto.
    { rewrite app_length. auto. }
    exists st3, tr2. rewrite filter_app, app_assoc. auto.
Qed.

(** "New pair was added to the locked eigenvectors": over a whole run, whatever the
    restarts propose, there is one report for each pair locked, in order; the last cells
    are the value, norm and flag of the pair, and the cells before those of the pairs
    locked before it. *)
Theorem C61_locked : forall t shifts numEvals evals norms flags evecs (rounds : list (list cand)),
  shifts <> [] \/ extreme t = true ->
  length evals = numEvals -> length norms = numEvals -> length flags = numEvals ->
  numEvals <= length evecs -> rounds_fit numEvals 0 rounds ->
  exists st tr,
    runR t shifts numEvals (lock_init numEvals evals norms flags evecs) rounds [] = Some (st, tr) /\
    lock_run o t shifts numEvals (lock_init numEvals evals norms flags evecs) rounds = Some st /\
    each_locked tr (filter is_locked (concat rounds)).
Proof.
  intros t shifts numEvals evals norms flags evecs rounds Hsh L1 L2 L3 L4 HF.
  destruct evals as [|v evals].
  - assert (Z : numEvals = 0) by (rewrite <- L1; reflexivity). rewrite Z in *.
    assert (C : concat rounds = []).
    { clear - HF. revert HF. induction rounds as [|cs rest IH]; simpl; [auto|].
      intros [A B]. destruct cs; [simpl in *; auto|simpl in A; lia]. }
    rewrite C. exists (lock_init 0 [] norms flags evecs), [].
    assert (D : forall tr, runR t shifts 0 (lock_init 0 [] norms flags evecs) rounds tr
              = Some (lock_init 0 [] norms flags evecs, tr) /\
              lock_run o t shifts 0 (lock_init 0 [] norms flags evecs) rounds
              = Some (lock_init 0 [] norms flags evecs)).
    { intros tr. clear - C. induction rounds as [|cs rest IH]; [auto|]. simpl in C.
      apply app_eq_nil in C. destruct C as [-> C]. simpl. apply IH; auto. }
    destruct (D []) as [D1 D2]. split; [exact D1|]. split; [exact D2|].
    split; [reflexivity|]. intros k c rep Hk. destruct k; discriminate.
  - destruct (run_reports t shifts v numEvals rounds (lock_init numEvals (v :: evals) norms flags evecs) [] [])
      as (st & tr & J1 & J2 & J3); auto.
    + apply linv_init.
    + unfold sizes, lock_init. cbn [l_evals l_norms l_flags l_perm l_evecs]. rewrite seq_length. auto.
    + split; [reflexivity|]. intros k c rep Hk. destruct k; discriminate.
    + exists st, tr. auto.
Qed.

(** "inner_its and LSRes are not provided": but LSRes is, as the number 0.0 passed by
    restart.c 1161 is taken for a residual norm by auxiliary_eigs_normal.c 485. *)
Theorem C61_locked_LSRes_refuted : nonneg zero = true ->
  forall evals n lflags norms,
    r_event (locked_call same conv nonneg zero evals n lflags norms) = locked_pair /\
    r_inner (locked_call same conv nonneg zero evals n lflags norms) = None /\
    r_LSRes (locked_call same conv nonneg zero evals n lflags norms) <> None.
Proof.
  intros Hz evals n lflags norms. unfold locked_call, monitorFun, astype.
  cbn [r_event r_inner r_LSRes]. rewrite Hz. repeat split. destruct same; discriminate.
Qed.
End Locked.
Print Assumptions C61_locked.
Print Assumptions C61_locked_LSRes_refuted.
