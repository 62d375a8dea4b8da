(** Properties C07, C08 and C28: communication between processes. *)
From Coq Require Import ZArith List Bool Lia Permutation Znumtheory.
From Verif Require Import Base SpecParallel ParallelModel.
Import ListNotations.
Open Scope Z_scope.

(* ---------------------------------------------------------------- *)
(** ** Reductions *)

Definition zsum (l : list Z) : Z := fold_right Z.add 0 l.
Lemma zsum_app : forall a b, zsum (a ++ b) = zsum a + zsum b.
Proof. induction a; cbn; intros; auto. unfold zsum in *. rewrite IHa. lia. Qed.
Lemma zsum_perm : forall a b, Permutation a b -> zsum a = zsum b.
Proof. induction 1; cbn in *; unfold zsum in *; cbn; lia. Qed.
Lemma reduction_Z : forall l a, reduction Z.add l a -> a = zsum l.
Proof.
  induction 1.
  - cbn. lia.
  - rewrite zsum_app. lia.
  - rewrite <- (zsum_perm _ _ H). auto.
Qed.
Lemma reduction_exists : forall {A} (add : A -> A -> A) x l, exists a, reduction add (x :: l) a.
Proof.
  intros A add x l. revert x. induction l as [|y l IH]; intro x.
  - exists x. constructor.
  - destruct (IH y) as [a H]. exists (add x a).
    change (x :: y :: l) with ([x] ++ y :: l). constructor; auto. constructor.
Qed.

(** All entries are [z] but one, which is [x]. *)
Definition only {A} (z x : A) (l : list A) : Prop :=
  exists l1 l2, l = l1 ++ x :: l2 /\ Forall (eq z) (l1 ++ l2).

Lemma reduction_only : forall {A} (add : A -> A -> A) z,
  (forall x, add z x = x) -> (forall x, add x z = x) ->
  forall l a, reduction add l a ->
  (Forall (eq z) l -> a = z) /\ (forall x, only z x l -> a = x).
Proof.
  intros A add z L R l a H. induction H as [x|l1 l2 a b H1 [IH1 IH1'] H2 [IH2 IH2']|l l' a P H [IH IH']].
  - split.
    + intro F. inversion F; auto.
    + intros y (l1 & l2 & E & F). destruct l1 as [|? [|? ?]]; cbn in E; try discriminate.
      injection E as -> _. reflexivity.
  - split.
    + intro F. apply Forall_app in F. destruct F as [F1 F2].
      rewrite (IH1 F1), (IH2 F2). apply L.
    + intros x (u & v & E & F).
      apply Forall_app in F. destruct F as [Fu Fv].
      apply app_eq_app in E. destruct E as (w & [[E1 E2]|[E1 E2]]).
      * destruct w as [|y w].
        -- cbn in E2. rewrite app_nil_r in E1. subst u.
           rewrite (IH1 Fu), L. apply IH2'. exists [], v. cbn. auto.
        -- cbn in E2. injection E2 as <- E2. subst l1 v.
           apply Forall_app in Fv. destruct Fv as [Fw Fl].
           rewrite (IH2 Fl), R. apply IH1'. exists u, w. split; auto. apply Forall_app; auto.
      * subst u l2. apply Forall_app in Fu. destruct Fu as [Fl Fw].
        rewrite (IH1 Fl), L. apply IH2'. exists w, v. split; auto. apply Forall_app; auto.
  - split.
    + intro F. apply IH. eapply Permutation_Forall; [apply Permutation_sym; eassumption|auto].
    + intros x (u & v & -> & F). apply IH'.
      assert (I : In x l) by (eapply Permutation_in; [apply Permutation_sym; eassumption|];
                              apply in_or_app; right; left; auto).
      apply in_split in I. destruct I as (l1 & l2 & ->). exists l1, l2. split; auto.
      apply Permutation_app_inv in P.
      eapply Permutation_Forall; [apply Permutation_sym; eassumption|auto].
Qed.

(* ================================================================ *)
(** * C07: coordinated exit *)

(** Every process ends; either all local codes are 0 and all return 0, or every
    process returns a non-zero code, its own if it had one. *)
Theorem C07_all_or_none : forall reduce ierrs rets,
  rets <> [] -> length ierrs = length rets -> Forall (eq 0) ierrs ->
  (forall l, reduction Z.add l (reduce l) \/ l = []) ->
  Forall (fun r => r <> PRIMME_PARALLEL_FAILURE) rets \/
  Forall (fun r => r = PRIMME_PARALLEL_FAILURE) rets ->
  exists outs, coordinated_exit true reduce ierrs rets = Some outs /\
    length outs = length rets /\
    ((Forall (eq 0) rets /\ Forall (eq 0) outs) \/
     (Exists (fun r => r <> 0) rets /\ Forall (fun o => o <> 0) outs)) /\
    (forall i r, nth_error rets i = Some r -> r <> 0 -> nth_error outs i = Some r).
Proof.
  intros reduce ierrs rets NE LE FE HR [NP|AP].
  2:{ exists rets. unfold coordinated_exit.
      assert (X : forallb (fun r => r =? PRIMME_PARALLEL_FAILURE) rets = true).
      { apply forallb_forall. intros x I. rewrite Forall_forall in AP.
        apply Z.eqb_eq. auto. }
      rewrite X. split; [reflexivity|]. split; [reflexivity|]. split; [|auto].
      right. split.
      - destruct rets as [|r rs]; [congruence|]. constructor. inversion AP; subst. discriminate.
      - apply Forall_forall. intros x I. rewrite Forall_forall in AP. rewrite (AP x I). discriminate. }
  unfold coordinated_exit.
  assert (X : existsb (fun r => r =? PRIMME_PARALLEL_FAILURE) rets = false).
  { destruct (existsb _ rets) eqn:E; auto. apply existsb_exists in E.
    destruct E as (r & I & E). apply Z.eqb_eq in E. rewrite Forall_forall in NP.
    exfalso; eapply NP; eauto. }
  assert (Y : forallb (fun r => r =? PRIMME_PARALLEL_FAILURE) rets = false).
  { destruct rets as [|r rs]; [congruence|]. cbn [forallb]. cbn [existsb] in X.
    apply orb_false_iff in X. destruct X as [-> _]. reflexivity. }
  rewrite X, Y. cbv zeta.
  set (contr := map _ rets).
  assert (T : reduce contr = zsum contr).
  { destruct (HR contr) as [H|H]; [now apply reduction_Z|].
    subst contr. destruct rets; [congruence|discriminate]. }
  rewrite T.
  eexists. split; [reflexivity|]. split; [rewrite map_length, combine_length; lia|].
  assert (POS : 0 <= zsum contr /\ (zsum contr = 0 <-> Forall (eq 0) rets)).
  { subst contr. clear. induction rets as [|r rs [IH1 IH2]]; cbn [map zsum fold_right].
    - split; [cbn; lia|]. split; auto.
    - fold (zsum (map (fun r => if negb (r =? 0) then 1 else 0) rs)) in *.
      destruct (Z.eqb_spec r 0); cbn [negb].
      + split; [lia|]. rewrite Z.add_0_l, IH2. split.
        * intro H. constructor; auto.
        * intro H. now inversion H.
      + split; [lia|]. split.
        * lia.
        * intro H. inversion H; subst. congruence. }
  destruct POS as [P0 P1].
  assert (N : forall i r, nth_error rets i = Some r ->
     nth_error (map (fun er => exit_code (zsum contr) (fst er) (snd er)) (combine ierrs rets)) i
       = Some (exit_code (zsum contr) 0 r)).
  { generalize (zsum contr). intro t. clear contr T P0 P1 X Y NP NE HR.
    intros i. revert ierrs rets LE FE. induction i as [|i IH];
    intros [|e es] [|r rs] LE FE r' H; try discriminate; inversion FE; subst.
    - cbn [nth_error map combine fst snd] in *. injection H as <-. reflexivity.
    - cbn [nth_error map combine fst snd length] in *. apply IH; auto. }
  split.
  - destruct (Z.eq_dec (zsum contr) 0) as [Z0|Z0].
    + left. split; [now apply P1|]. apply Forall_forall. intros o I.
      apply In_nth_error in I. destruct I as [i I].
      assert (L : (i < length rets)%nat).
      { assert (L : (i < length (map (fun er => exit_code (zsum contr) (fst er) (snd er))
           (combine ierrs rets)))%nat) by (apply nth_error_Some; congruence).
        rewrite map_length, combine_length in L. lia. }
      destruct (nth_error rets i) as [r|] eqn:E; [|apply nth_error_None in E; lia].
      rewrite (N i r E) in I. injection I as <-. unfold exit_code. rewrite Z0. cbn.
      apply P1 in Z0. rewrite Forall_forall in Z0. symmetry. symmetry. apply Z0.
      eapply nth_error_In; eauto.
    + right. split.
      * assert (D : {Forall (eq 0) rets} + {~ Forall (eq 0) rets})
          by (apply Forall_dec; intro; apply Z.eq_dec).
        destruct D as [D|D]; [exfalso; apply Z0; now apply P1|].
        apply Exists_exists. apply neg_Forall_Exists_neg in D; [|intro; apply Z.eq_dec].
        apply Exists_exists in D. destruct D as (x & I & Hx). exists x. split; auto.
      * apply Forall_forall. intros o I.
        apply In_nth_error in I. destruct I as [i I].
        assert (L : (i < length rets)%nat).
        { assert (L : (i < length (map (fun er => exit_code (zsum contr) (fst er) (snd er))
             (combine ierrs rets)))%nat) by (apply nth_error_Some; congruence).
          rewrite map_length, combine_length in L. lia. }
        destruct (nth_error rets i) as [r|] eqn:E; [|apply nth_error_None in E; lia].
        rewrite (N i r E) in I. injection I as <-. unfold exit_code. cbn [Z.eqb negb].
        destruct (Z.gtb_spec (zsum contr) 0); [|lia].
        destruct (Z.eqb_spec r 0); cbn; [discriminate|auto].
  - intros i r H Hr. rewrite (N i r H). unfold exit_code. cbn [Z.eqb negb].
    destruct (Z.eqb_spec r 0); [contradiction|]. cbn [negb].
    destruct (zsum contr >? 0); reflexivity.
Qed.

Example C07_nonvacuous :
  coordinated_exit true zsum [0;0;0] [0; -12; 0] = Some [-43; -12; -43] /\
  coordinated_exit true zsum [0;0;0] [0; 0; 0] = Some [0; 0; 0] /\
  (forall l, reduction Z.add l (zsum l) \/ l = []).
Proof.
  split; [reflexivity|]. split; [reflexivity|].
  intros [|x l]; auto. left. destruct (reduction_exists Z.add x l) as [a H].
  rewrite <- (reduction_Z _ _ H). exact H.
Qed.

(** A process on which the reduction itself fails, with whatever code, reports it. *)
Theorem C07_failed_sum : forall reduce ierrs rets outs i e r,
  coordinated_exit true reduce ierrs rets = Some outs ->
  Exists (fun r => r <> PRIMME_PARALLEL_FAILURE) rets ->
  nth_error ierrs i = Some e -> nth_error rets i = Some r -> e <> 0 ->
  nth_error outs i = Some PRIMME_USER_FAILURE.
Proof.
  intros reduce ierrs rets outs i e r H X E R N. unfold coordinated_exit in H.
  destruct (forallb _ rets) eqn:F in H.
  { rewrite forallb_forall in F. apply Exists_exists in X. destruct X as (x & I & X). apply F, Z.eqb_eq in I. congruence. }
  destruct (existsb _ rets) in H; [discriminate|]. injection H as <-.
  rewrite nth_error_map. replace (nth_error (combine ierrs rets) i) with (Some (e, r)).
  - cbn. unfold exit_code. apply Z.eqb_neq in N. rewrite N. reflexivity.
  - clear -E R. revert ierrs rets E R. induction i as [|i IH]; intros [|a la] [|b lb] E R; try discriminate; cbn in *.
    + congruence.
    + apply IH; auto.
Qed.

(** If only some processes hold the parallel-failure code, or if the callback
    fails on only some processes, the processes do not agree. *)
Theorem C07_mixed_failure_blocks_refuted :
  coordinated_exit true zsum [0;0] [PRIMME_PARALLEL_FAILURE; 0] = None.
Proof. reflexivity. Qed.
Theorem C07_callback_error_disagrees_refuted :
  coordinated_exit true zsum [7;0] [0; 0] = Some [PRIMME_USER_FAILURE; 0].
Proof. reflexivity. Qed.

(* ================================================================ *)
(** * C08: broadcast by summation *)

Lemma sums_only : forall {U} (add : U -> U -> U) z d,
  (forall x, add z x = x) -> (forall x, add x z = x) ->
  forall pre post r out,
  sums add d (pre ++ r :: post) out ->
  Forall (Forall (eq z)) (pre ++ post) ->
  out = r.
Proof.
  intros U add z d L R pre post r out [LEN S] F.
  apply nth_ext with (d := d) (d' := d).
  - symmetry. apply LEN. apply in_or_app; right; left; auto.
  - intros k K. specialize (S k K).
    destruct (reduction_only add z L R _ _ S) as [_ H]. apply H.
    rewrite map_app. cbn [map].
    exists (map (fun b => nth k b d) pre), (map (fun b => nth k b d) post).
    split; auto. rewrite <- map_app. apply Forall_forall. intros x I.
    apply in_map_iff in I. destruct I as (b & <- & I).
    rewrite Forall_forall in F. specialize (F b I). rewrite Forall_forall in F.
    apply F. apply nth_In. rewrite (LEN b); auto.
    apply in_app_iff in I. apply in_app_iff. cbn. tauto.
Qed.

(** With only a global sum supplied, after the internal broadcast every process
    holds the root's buffer (as it survives the conversion to the callback's
    type and back), whatever the other processes held, and the operation is
    counted once in each statistic. *)
Theorem C08_broadcast_by_sum :
  forall {A U} (zero : A) (cast : A -> U) (back : U -> A) (add : U -> U -> U) (d : U)
         (c : callbacks U) (R : list (list U) -> list U) numProcs pre root post,
  (forall x, add (cast zero) x = x) -> (forall x, add x (cast zero) = x) ->
  c_sum c = Some R -> c_bcast c = None -> (forall i, c_sum_err c i = 0) ->
  (forall bufs, bufs <> [] -> (forall b b', In b bufs -> In b' bufs -> length b = length b') ->
     sums add d bufs (R bufs)) ->
  numProcs <> 1 -> pc_id root = 0 ->
  (forall p, In p (pre ++ post) -> pc_id p <> 0) ->
  (forall p, In p (pre ++ post) -> length (pc_buf p) = length (pc_buf root)) ->
  let ps := pre ++ root :: post in
  forall i p, nth_error ps i = Some p ->
  exists q, nth_error (broadcast zero cast back c numProcs ps) i = Some (0, q) /\
    pc_buf q = map (fun x => back (cast x)) (pc_buf root) /\ pc_id q = pc_id p /\
    pc_numBc q = pc_numBc p + 1 /\
    pc_volBc q = pc_volBc p + Z.of_nat (length (pc_buf root)) /\
    pc_numSum q = pc_numSum p + 1 /\
    pc_volSum q = pc_volSum p + Z.of_nat (length (pc_buf root)).
Proof.
  intros A U zero cast back add d c R numProcs pre root post L0 R0 HS HB HE HR HN HI HO HL ps i p Hi.
  unfold broadcast. destruct (Z.eqb_spec numProcs 1); [contradiction|]. rewrite HB.
  set (zr := fun q : proc A => if negb (pc_id q =? 0)
        then with_buf q (map (fun _ => zero) (pc_buf q)) else q).
  fold zr. cbv zeta. unfold globalSum. rewrite HS.
  destruct (Z.eqb_spec numProcs 1); [contradiction|]. cbv zeta.
  set (bufs := map (fun q => map cast (pc_buf q)) (map zr ps)).
  assert (RB : zr root = root) by (unfold zr; rewrite HI; reflexivity).
  assert (OUT : R bufs = map cast (pc_buf root)).
  { assert (E : bufs = map (fun q => map cast (pc_buf (zr q))) pre
                 ++ map cast (pc_buf root)
                 :: map (fun q => map cast (pc_buf (zr q))) post).
    { subst bufs ps. rewrite map_map, map_app. cbn [map]. now rewrite RB. }
    assert (LB : forall b, In b bufs -> length b = length (pc_buf root)).
    { intros b I. rewrite E in I. apply in_app_iff in I. cbn [In] in I.
      assert (K : forall q, In q (pre ++ post) ->
         length (map cast (pc_buf (zr q))) = length (pc_buf root)).
      { intros q J. rewrite map_length. unfold zr.
        destruct (negb (pc_id q =? 0)); cbn [with_buf pc_buf]; rewrite ?map_length; auto. }
      destruct I as [I|[I|I]].
      - apply in_map_iff in I. destruct I as (q & <- & I). apply K. apply in_app_iff; auto.
      - subst b. apply map_length.
      - apply in_map_iff in I. destruct I as (q & <- & I). apply K. apply in_app_iff; auto. }
    assert (S : sums add d bufs (R bufs)).
    { apply HR.
      - rewrite E. destruct (map (fun q => map cast (pc_buf (zr q))) pre); discriminate.
      - intros b b' I J. rewrite (LB b I), (LB b' J). reflexivity. }
    rewrite E in S at 1.
    refine (sums_only add (cast zero) d L0 R0 _ _ _ _ S _).
    rewrite <- map_app. apply Forall_forall. intros b I.
    apply in_map_iff in I. destruct I as (q & <- & I).
    unfold zr. destruct (Z.eqb_spec (pc_id q) 0); [exfalso; eapply HO; eauto|].
    cbn [negb with_buf pc_buf]. apply Forall_forall. intros x J.
    rewrite map_map in J. apply in_map_iff in J. destruct J as (y & <- & _). reflexivity. }
  rewrite OUT.
  rewrite !map_map.
  erewrite map_nth_error by exact Hi.
  eexists. split.
  { rewrite HE. cbn [Z.eqb negb fst snd]. reflexivity. }
  cbn [count_bc count_sum with_buf pc_buf pc_id pc_numBc pc_volBc pc_numSum pc_volSum].
  rewrite !map_length.
  assert (ZR : pc_id (zr p) = pc_id p /\ pc_numBc (zr p) = pc_numBc p /\
     pc_volBc (zr p) = pc_volBc p /\ pc_numSum (zr p) = pc_numSum p /\
     pc_volSum (zr p) = pc_volSum p).
  { unfold zr. destruct (negb (pc_id p =? 0)); cbn; auto. }
  destruct ZR as (-> & -> & -> & -> & ->). auto 8.
Qed.

(** A supplied broadcast callback that delivers the root's buffer gives the same
    result on every process. *)
Theorem C08_broadcast_by_callback :
  forall {A U} (zero : A) (cast : A -> U) (back : U -> A) (c : callbacks U)
         (B : list (list U) -> list U) numProcs pre root post,
  c_bcast c = Some B -> (forall i, c_bcast_err c i = 0) ->
  (forall bp br bq, length bp = length pre -> B (bp ++ br :: bq) = br) ->
  numProcs <> 1 ->
  let ps := pre ++ root :: post in
  forall i p, nth_error ps i = Some p ->
  exists q, nth_error (broadcast zero cast back c numProcs ps) i = Some (0, q) /\
    pc_buf q = map (fun x => back (cast x)) (pc_buf root) /\
    pc_numBc q = pc_numBc p + 1 /\ pc_numSum q = pc_numSum p.
Proof.
  intros A U zero cast back c B numProcs pre root post HB HE HD HN ps i p Hi.
  unfold broadcast. destruct (Z.eqb_spec numProcs 1); [contradiction|]. rewrite HB. cbv zeta.
  erewrite map_nth_error by exact Hi. rewrite HE. cbn [Z.eqb negb].
  eexists. split; [reflexivity|].
  cbn [count_bc with_buf pc_buf pc_numBc pc_numSum]. split; auto.
  subst ps. rewrite map_app. cbn [map]. rewrite HD by apply map_length. now rewrite map_map.
Qed.

(** A single process keeps its buffer. *)
Theorem C08_single_process : forall {A U} (zero : A) (cast : A -> U) back c ps,
  broadcast zero cast back c 1 ps = map (fun p => (0, p)) ps.
Proof. reflexivity. Qed.

Definition sample_proc (i : Z) (b : list Z) : proc Z :=
  {| pc_id := i; pc_buf := b; pc_numSum := 0; pc_volSum := 0; pc_numBc := 0; pc_volBc := 0 |}.
Definition vec_sum (bufs : list (list Z)) : list Z :=
  fold_right (fun a b => map (fun xy => fst xy + snd xy) (combine a b))
             (map (fun _ => 0) (hd [] bufs)) bufs.
Example C08_nonvacuous :
  map (fun cp => pc_buf (snd cp))
    (broadcast 0 (fun x => x) (fun x => x)
       {| c_sum := Some vec_sum; c_sum_err := fun _ => 0; c_bcast := None; c_bcast_err := fun _ => 0 |}
       3 [sample_proc 1 [4;5]; sample_proc 0 [8;9]; sample_proc 2 [6;6]])
  = [[8;9]; [8;9]; [8;9]].
Proof. reflexivity. Qed.

(** With several processes and neither callback, the other processes are left
    with zeros and no error is raised by the broadcast itself. *)
Theorem C08_no_callback_refuted :
  map (fun cp => (fst cp, pc_buf (snd cp)))
    (broadcast 0 (fun x => x) (fun x => x)
       {| c_sum := None; c_sum_err := fun _ => 0; c_bcast := None; c_bcast_err := fun _ => 0 |}
       2 [sample_proc 0 [8;9]; sample_proc 1 [4;5]])
  = [(0, [8;9]); (0, [0;0])].
Proof. reflexivity. Qed.

(* ================================================================ *)
(** * C28: consistency check *)

Lemma hash_range : forall s w0 w1, 0 <= hash_call s w0 w1 < word.
Proof. intros. unfold hash_call. apply Z.mod_pos_bound. reflexivity. Qed.

(** The outcome is the same on all processes. *)
Theorem C28_uniform_outcome : forall T sites,
  Forall (eq 0) (parallel_check T sites) \/
  Forall (eq PRIMME_PARALLEL_FAILURE) (parallel_check T sites).
Proof.
  intros T sites. unfold parallel_check. cbv zeta.
  destruct (map _ sites) as [|h0 hs]; [left; constructor|].
  match goal with |- context [negb (?t =? 0)] => destruct (t =? 0) end; cbn [negb].
  - left. apply Forall_forall. intros x I. apply in_map_iff in I. destruct I as (? & <- & _). auto.
  - right. apply Forall_forall. intros x I. apply in_map_iff in I. destruct I as (? & <- & _). auto.
Qed.

Lemma bad_total : forall h0 hs,
  fold_right Z.add 0 (map (fun h => if negb (h =? h0) then 1 else 0) hs) = 0
  <-> Forall (fun h => h = h0) hs.
Proof.
  assert (P : forall h0 hs,
    0 <= fold_right Z.add 0 (map (fun h => if negb (h =? h0) then 1 else 0) hs)).
  { intros h0. induction hs as [|h hs IH]; cbn [map fold_right]; [lia|].
    destruct (h =? h0); cbn [negb]; lia. }
  intros h0. induction hs as [|h hs IH]; cbn [map fold_right].
  - split; auto.
  - specialize (P h0 hs). destruct (Z.eqb_spec h h0); cbn [negb].
    + rewrite Z.add_0_l, IH. split; intro H; [constructor; auto|now inversion H].
    + split; [lia|]. intro H. inversion H; subst. congruence.
Qed.

(** When the broadcast preserves the root's hash, the check passes exactly when
    all hashes are equal. *)
Theorem C28_detects_hash_differences : forall T s0 v0 v1 rest,
  let h0 := hash_call s0 v0 v1 in
  T h0 = h0 ->
  (Forall (eq 0) (parallel_check T ((s0, v0, v1) :: rest)) <->
   forall s a b, In (s, a, b) rest -> hash_call s a b = h0).
Proof.
  intros T s0 v0 v1 rest h0 HT. unfold parallel_check. cbv zeta. cbn [map]. fold h0. rewrite HT.
  change (map (fun h => if negb (h =? h0) then 1 else 0) (h0 :: map _ rest))
    with (map (fun h => if negb (h =? h0) then 1 else 0)
           (h0 :: map (fun s => let '(str, w0, w1) := s in hash_call str w0 w1) rest)).
  set (hs := map (fun s => let '(str, w0, w1) := s in hash_call str w0 w1) rest).
  pose proof (bad_total h0 (h0 :: hs)) as B. cbn [map] in B.
  assert (E : Forall (fun h => h = h0) hs <-> forall s a b, In (s, a, b) rest -> hash_call s a b = h0).
  { subst hs. rewrite Forall_forall. split.
    - intros H s a b I. apply H. apply in_map_iff. exists (s, a, b). auto.
    - intros H h I. apply in_map_iff in I. destruct I as ([[s a] b] & <- & I). auto. }
  rewrite <- E. split.
  - intro F. inversion F as [|? ? F1 _]; subst.
    match type of F1 with context [negb (?t =? 0)] => destruct (Z.eqb_spec t 0) as [Z0|Z0] end;
      cbn [negb] in F1; [|discriminate F1].
    apply B in Z0. now inversion Z0.
  - intro F.
    assert (Z0 : Forall (fun h => h = h0) (h0 :: hs)) by (constructor; auto).
    apply B in Z0. rewrite Z0. cbn [Z.eqb negb].
    constructor; auto. apply Forall_forall. intros x I.
    apply in_map_iff in I. destruct I as (? & <- & _). auto.
Qed.

(** No false alarm when every process is at the same check with the same value. *)
Corollary C28_no_false_alarm : forall T s v0 v1 n,
  T (hash_call s v0 v1) = hash_call s v0 v1 ->
  Forall (eq 0) (parallel_check T (repeat (s, v0, v1) (S n))).
Proof.
  intros T s v0 v1 n HT. cbn [repeat]. apply C28_detects_hash_differences; auto.
  intros s' a b I. apply repeat_spec in I. injection I as -> -> ->. reflexivity.
Qed.

(** Which values the checksum separates: at the same call site, two values have
    the same hash iff their words satisfy one linear congruence; so values that
    differ in only one of the two words are always told apart. *)
Theorem C28_checksum_separates : forall s a0 a1 b0 b1,
  0 <= a0 < word -> 0 <= a1 < word -> 0 <= b0 < word -> 0 <= b1 < word ->
  (hash_call s a0 a1 = hash_call s b0 b1 <-> (33 * (a0 - b0) + (a1 - b1)) mod word = 0) /\
  (hash_call s a0 a1 = hash_call s b0 b1 -> (a0 = b0 <-> a1 = b1)).
Proof.
  intros s a0 a1 b0 b1 A0 A1 B0 B1.
  assert (E : hash_call s a0 a1 = hash_call s b0 b1 <->
     (33 * (a0 - b0) + (a1 - b1)) mod word = 0).
  { unfold hash_call. cbv zeta. set (h := fold_left _ s 5381).
    assert (W : word <> 0) by discriminate.
    assert (S : forall x y, x mod word = y mod word <-> (x - y) mod word = 0).
    { intros x y. split; intro H.
      - rewrite Zminus_mod, H, Z.sub_diag. reflexivity.
      - apply Z.mod_divide in H; auto. destruct H as [k H].
        replace x with (y + k * word) by lia. apply Z.mod_add; auto. }
    assert (M : forall c d, ((h * 33 + c) mod word * 33 + d) mod word
                = ((h * 33 + c) * 33 + d) mod word).
    { intros c d. rewrite Zplus_mod, Zmult_mod_idemp_l, <- Zplus_mod. reflexivity. }
    rewrite !M, S. replace (((h * 33 + a0) * 33 + a1) - ((h * 33 + b0) * 33 + b1))
      with (33 * (a0 - b0) + (a1 - b1)) by ring. reflexivity. }
  split; [exact E|]. rewrite E. intro H. apply Z.mod_divide in H; [|discriminate].
  split; intros <-.
  - destruct H as [k H]. unfold word in *. assert (k = 0) by lia. lia.
  - rewrite Z.sub_diag, Z.add_0_r in H. apply Gauss in H.
    + destruct H as [k H]. unfold word in *. assert (k = 0) by lia. lia.
    + apply Zgcd_1_rel_prime. reflexivity.
Qed.

Example C28_nonvacuous :
  parallel_check (fun h => h) [([110], 0, 1079574528); ([110], 0, 1079574528)] = [0; 0] /\
  parallel_check (fun h => h) [([110], 0, 1079574528); ([110], 0, 1079590912)] = [-43; -43].
Proof. split; reflexivity. Qed.

(** Different values can collide, for every call site. *)
Theorem C28_collision_refuted : forall s,
  hash_call s 1 1079574528 = hash_call s 0 1079574561.
Proof.
  intro s. apply C28_checksum_separates; try (unfold word; lia). reflexivity.
Qed.

(** The hash travels as a float: when the broadcast is emulated by a sum, for
    every call site some value makes the check fail although all processes
    agree, because the sum quiets signalling NaN patterns. *)
Theorem C28_false_alarm_refuted : forall s,
  exists v0 v1, 0 <= v0 < word /\ 0 <= v1 < word /\
    parallel_check f32_plus_zero [(s, v0, v1); (s, v0, v1)]
      = [PRIMME_PARALLEL_FAILURE; PRIMME_PARALLEL_FAILURE].
Proof.
  intro s.
  set (h := (fold_left (fun h c => (h * 33 + c) mod word) s 5381 * 33 + 0) mod word).
  exists 0, ((2139095041 - h * 33) mod word).
  split; [unfold word; lia|]. split; [apply Z.mod_pos_bound; reflexivity|].
  assert (E : hash_call s 0 ((2139095041 - h * 33) mod word) = 2139095041).
  { unfold hash_call. cbv zeta. fold h. rewrite Zplus_mod_idemp_r.
    replace (h * 33 + (2139095041 - h * 33)) with 2139095041 by ring. reflexivity. }
  unfold parallel_check. cbn [map]. rewrite E. reflexivity.
Qed.

Print Assumptions C07_all_or_none.
Print Assumptions C07_mixed_failure_blocks_refuted.
Print Assumptions C07_callback_error_disagrees_refuted.
Print Assumptions C08_broadcast_by_sum.
Print Assumptions C08_broadcast_by_callback.
Print Assumptions C08_single_process.
Print Assumptions C08_no_callback_refuted.
Print Assumptions C28_uniform_outcome.
Print Assumptions C28_detects_hash_differences.
Print Assumptions C28_no_false_alarm.
Print Assumptions C28_checksum_separates.
Print Assumptions C28_collision_refuted.
Print Assumptions C28_false_alarm_refuted.
