(** C52: the permutations of restart() (RestartModel, C13) are as the steps need them. *)
From Coq Require Import List Arith ZArith Bool Lia Permutation Sorted.
From Verif Require Import Base Values SelectModel RestartModel ScatterProofs PropsRestart.
From Verif Require SpecExtract SpecReproj SpecStep StepModel.
Import ListNotations.
Open Scope nat_scope.

Notation selects := SpecStep.selects.
Notation permutes := SpecExtract.permutes.
Notation together := SpecReproj.together.
Notation at_ l := (fun i => nth i l 0).

Lemma sorted_same : forall l m, StronglySorted lt l -> StronglySorted lt m -> Permutation l m -> l = m.
Proof.
  induction l as [|a l IH]; intros m Sl Sm P.
  - apply Permutation_nil in P. now subst.
  - destruct m as [|b m]; [apply Permutation_sym, Permutation_nil in P; discriminate|].
    inversion Sl as [|? ? Sl' Fl]; subst. inversion Sm as [|? ? Sm' Fm]; subst.
    rewrite Forall_forall in Fl, Fm.
    assert (a = b).
    { assert (Ia : In a (b :: m)) by (apply (Permutation_in _ P); now left).
      assert (Ib : In b (a :: l)) by (apply (Permutation_in _ (Permutation_sym P)); now left).
      destruct Ia as [e|Ia]; [auto|]. destruct Ib as [e|Ib]; [auto|]. apply Fl in Ib. apply Fm in Ia. lia. }
    subst b. f_equal. apply IH; auto. exact (Permutation_cons_inv P).
Qed.

Lemma sorted_split b : forall l, StronglySorted lt l ->
  l = filter (fun x => x <? b) l ++ filter (fun x => b <=? x) l.
Proof.
  induction l as [|a l IH]; intros S; [reflexivity|]. inversion S as [|? ? S' F]; subst. rewrite Forall_forall in F.
  cbn [filter]. destruct (Nat.ltb_spec a b) as [C|C].
  - replace (b <=? a) with false by (symmetry; apply Nat.leb_gt; exact C). cbn [app]. f_equal. apply IH. exact S'.
  - replace (b <=? a) with true by (symmetry; apply Nat.leb_le; exact C).
    assert (E : filter (fun x => x <? b) l = []).
    { clear IH S S'. induction l as [|c l IH]; [reflexivity|]. cbn [filter].
      assert (a < c) by (apply F; now left). replace (c <? b) with false by (symmetry; apply Nat.ltb_ge; lia).
      apply IH. intros x Hx. apply F. now right. }
    rewrite E. cbn [app]. f_equal. rewrite (IH S') at 1. rewrite E. reflexivity.
Qed.

Lemma perm_filter (f : nat -> bool) l m : Permutation l m -> Permutation (filter f l) (filter f m).
Proof.
  induction 1 as [|x l m P IH|x y l|l m k P1 IH1 P2 IH2].
  - constructor.
  - cbn. destruct (f x); [now constructor|exact IH].
  - cbn. destruct (f x), (f y); try apply Permutation_refl. constructor.
  - eapply Permutation_trans; eassumption.
Qed.

Lemma filter_none (f : nat -> bool) l : (forall x, In x l -> f x = false) -> filter f l = [].
Proof.
  induction l as [|a l IH]; intros H; [reflexivity|]. cbn. rewrite H by now left. apply IH. intros x Hx. apply H. now right.
Qed.
Lemma filter_whole (f : nat -> bool) l : (forall x, In x l -> f x = true) -> filter f l = l.
Proof.
  induction l as [|a l IH]; intros H; [reflexivity|]. cbn. rewrite H by now left. f_equal. apply IH. intros x Hx. apply H. now right.
Qed.

(** What is neither packed nor beyond the coefficient vectors in use comes first. *)
Lemma rest_shape U packed n b : is_perm (U ++ packed) n -> StronglySorted lt U -> b <= n ->
  (forall x, In x packed -> x < b) ->
  exists U0, U = U0 ++ seq b (n - b) /\ length U0 + length packed = b /\ forall x, In x U0 -> x < b.
Proof.
  intros P S Hb Hp. exists (filter (fun x => x <? b) U). unfold is_perm in P.
  assert (Es : seq 0 n = seq 0 b ++ seq b (n - b)) by (rewrite <- seq_app; f_equal; lia).
  assert (E1 : filter (fun x => x <? b) (seq 0 n) = seq 0 b).
  { rewrite Es, filter_app, filter_whole, filter_none, app_nil_r; [reflexivity| |];
      intros x Hx; apply in_seq in Hx; [apply Nat.ltb_ge|apply Nat.ltb_lt]; lia. }
  assert (E2 : filter (fun x => b <=? x) (seq 0 n) = seq b (n - b)).
  { rewrite Es, filter_app, filter_none, filter_whole; [reflexivity| |];
      intros x Hx; apply in_seq in Hx; [apply Nat.leb_le|apply Nat.leb_gt]; lia. }
  split; [|split].
  - rewrite (sorted_split b U S) at 1. f_equal. apply sorted_same.
    + clear -S. induction S as [|a l S IH F]; [constructor|]. cbn. destruct (b <=? a); [|exact IH]. constructor; [exact IH|].
      rewrite Forall_forall in *. intros x Hx. apply filter_In in Hx. apply F. tauto.
    + apply seq_sorted.
    + rewrite <- E2. apply (perm_filter (fun x => b <=? x)) in P. rewrite filter_app in P.
      rewrite (filter_none _ packed), app_nil_r in P; [exact P|]. intros x Hx. apply Nat.leb_gt. auto.
  - apply (perm_filter (fun x => x <? b)) in P. rewrite filter_app in P. rewrite E1 in P.
    rewrite (filter_whole _ packed) in P by (intros x Hx; apply Nat.ltb_lt; auto).
    apply Permutation_length in P. rewrite app_length, seq_length in P. exact P.
  - intros x Hx. apply filter_In in Hx. destruct Hx as [_ Hx]. apply Nat.ltb_lt. exact Hx.
Qed.

Lemma perm_permutes l n : is_perm l n -> permutes n (at_ l).
Proof.
  intros P. assert (Ll : length l = n) by now apply is_perm_length. split.
  - intros i Hi. apply (is_perm_in _ _ _ P). apply nth_In. lia.
  - intros i j Hi Hj e. apply (NoDup_nth l 0); [eapply is_perm_nodup; eauto|lia|lia|exact e].
Qed.

Lemma sorted_app (l m : list nat) : StronglySorted lt l -> StronglySorted lt m ->
  (forall x y, In x l -> In y m -> x < y) -> StronglySorted lt (l ++ m).
Proof.
  induction 1 as [|a l S IH F]; intros Sm H; [exact Sm|]. cbn. constructor.
  - apply IH; [exact Sm|]. intros x y Hx Hy. apply H; [now right|exact Hy].
  - rewrite Forall_forall in *. intros x Hx. apply in_app_or in Hx. destruct Hx as [Hx|Hx]; [now apply F|].
    apply H; [now left|exact Hx].
Qed.

(** Locking: [kept], [packed], [dropped] as C13_locking gives them. *)
Lemma link_lock kept packed dropped tail n ip np : is_perm (kept ++ packed ++ dropped) n ->
  StronglySorted lt kept -> StronglySorted lt dropped -> (forall x y, In x kept -> In y dropped -> x < y) ->
  length kept = ip + np -> ip + length packed + np <= n ->
  (forall x, In x packed -> x < ip + length packed) ->
  selects n (ip + np + length packed) ip np (ip + length packed) (at_ (kept ++ packed ++ dropped ++ tail)).
Proof.
  intros P Sk Sd O Lk Hn Hp.
  assert (ND := is_perm_nodup _ _ P).
  destruct (rest_shape (kept ++ dropped) packed n (ip + length packed)) as (U0 & EU & L0 & B0); auto.
  { unfold is_perm in *. rewrite <- P. rewrite <- app_assoc. apply Permutation_app_head. apply Permutation_app_comm. }
  { now apply sorted_app. }
  { lia. }
  assert (Lu : length U0 = ip) by lia.
  assert (Nk : forall i, i < ip + np -> nth i kept 0 = nth i (U0 ++ seq (ip + length packed) (n - (ip + length packed))) 0).
  { intros i Hi. rewrite <- EU. rewrite app_nth1 by lia. reflexivity. }
  assert (Na : forall i, i < ip + np -> nth i (kept ++ packed ++ dropped ++ tail) 0 = nth i kept 0).
  { intros i Hi. rewrite app_nth1 by lia. reflexivity. }
  assert (Nb : forall i, ip + np <= i < ip + np + length packed ->
            In (nth i (kept ++ packed ++ dropped ++ tail) 0) packed).
  { intros i Hi. rewrite app_nth2 by lia. rewrite app_nth1 by lia. apply nth_In. lia. }
  split; [lia|]. split; [lia|]. split; [|split].
  - intros i j Hi Hj e.
    assert (X : forall k, k < ip + np + length packed ->
      nth k (kept ++ packed ++ dropped ++ tail) 0 = nth k (kept ++ packed ++ dropped) 0).
    { intros k Hk. rewrite !(app_assoc kept). rewrite (app_assoc (kept ++ packed)).
      rewrite (app_nth1 ((kept ++ packed) ++ dropped)); [reflexivity|]. rewrite !app_length. lia. }
    cbv beta in e. rewrite !X in e by assumption.
    apply (NoDup_nth (kept ++ packed ++ dropped) 0); [exact ND| | |exact e]; rewrite !app_length; lia.
  - intros u Hu. rewrite Na, Nk by lia. rewrite app_nth2 by lia. rewrite seq_nth by lia. lia.
  - intros k Hk [C|C].
    + rewrite Na, Nk by lia. rewrite app_nth1 by lia. apply B0. apply nth_In. lia.
    + apply Hp. apply Nb. lia.
Qed.

Lemma filter_le (f : nat -> bool) l : length (filter f l) <= length l.
Proof. induction l as [|a l IH]; [auto|]. cbn. destruct (f a); cbn; lia. Qed.

(** The tests of the pairs to be locked, as flags. *)
Definition ok_of (fl : list flag) : nat -> bool := fun i => negb (is_unconverged (nth i fl UNCONVERGED)).
Lemma failed_first_of fl : failed_first fl 0 = StepModel.failed_of (ok_of fl) (length fl).
Proof.
  unfold StepModel.failed_of.
  assert (G : forall l s, failed_first l s = filter (fun i => negb (negb (is_unconverged (nth (i - s) l UNCONVERGED)))) (seq s (length l))).
  { induction l as [|f l IH]; intros s; [reflexivity|]. cbn [failed_first length seq filter].
    replace (s - s) with 0 by lia. cbn [nth]. rewrite (IH (S s)).
    assert (E : filter (fun i => negb (negb (is_unconverged (nth (i - S s) l UNCONVERGED)))) (seq (S s) (length l))
       = filter (fun i => negb (negb (is_unconverged (nth (i - s) (f :: l) UNCONVERGED)))) (seq (S s) (length l))).
    { apply filter_ext_in. intros i Hi. apply in_seq in Hi. replace (i - s) with (S (i - S s)) by lia. reflexivity. }
    rewrite E. destruct (is_unconverged f); reflexivity. }
  rewrite (G fl 0). apply filter_ext. intros i. unfold ok_of. rewrite Nat.sub_0_r. reflexivity.
Qed.

(** The reordering of restart_locking (restart.c 870-893, 1008-1032) selects what the
    steps of C52 need, if no pair to be locked lies beyond the coefficient vectors
    in front of those retained. *)
Theorem C52_lock_permutations : forall a keeps flags numEvals numLocked t rp rp' h fl,
  admissible a -> r_locking a = true ->
  r_basisSize a = Z.of_nat (length flags) -> r_numEvals a = Z.of_nat numEvals ->
  r_numLocked a = Z.of_nat numLocked -> numLocked <= numEvals ->
  let flags' := fst (restart_count flags 0 numEvals numLocked 0 t) in
  let c := snd (restart_count flags 0 numEvals numLocked 0 t) in
  r_numConverged a = Z.of_nat (numLocked + c) -> length flags <= length rp ->
  let rs := fst (restart_sizes a) in
  let npr := retain keeps 0 (snd (restart_sizes a)) (prev_index a rs) (r_basisSize a) in
  let ip := Z.to_nat rs in let np := Z.to_nat npr in let ipB := Z.to_nat (prev_index a rs) in
  lock_perm flags' numEvals numLocked t (Z.to_nat (rs + npr)) (Nat.min (numLocked + c) numEvals - numLocked)
    (length flags) 0 0 0 rp = Some (rp', c) ->
  (forall i, ip + np <= i < ip + np + c -> nth i rp' 0 < ipB) ->
  length fl = c -> length flags <= length h ->
  selects (length flags) (ip + np + c) ip np ipB (at_ rp') /\
  let failed := length (StepModel.failed_of (ok_of fl) c) in
  exists h', lock_hVecsPerm rp' (ifailed fl) ip np failed h = Some h' /\
    permutes (ip + np + failed) (at_ h') /\ together ip np (ip + np + failed) (at_ h').
Proof.
  intros a keeps flags ne nl t rp rp' h fl H HL HB HE HN Hle flags' c HC Hr rs npr ip np ipB Ep Hb Lf Lh.
  destruct (C13_locking a keeps flags ne nl t rp H HL HB HE HN Hle HC Hr)
    as (kept & packed & dropped & E & P & Lk & Lp & Sk & Sp & Sd & O & _).
  fold flags' c rs npr in E, Lk, Lp. rewrite Ep in E. injection E as ->.
  pose proof (C14_fits a H keeps) as F. cbv zeta in F. rewrite HL in F. fold rs npr in F.
  pose proof (C14_retained a H keeps) as R. cbv zeta in R. fold rs npr in R.
  pose proof (sizes_nonneg a H keeps) as Z0. cbv zeta in Z0. fold rs in Z0.
  assert (Lk' : length kept = ip + np) by (unfold ip, np; clearbody rs npr; lia).
  assert (EB : ipB = ip + length packed).
  { unfold ipB, ip, prev_index. rewrite HL. clearbody rs npr. lia. }
  assert (LP := is_perm_length _ _ P). rewrite !app_length in LP.
  split.
  - rewrite EB. rewrite <- Lp. apply link_lock; auto.
    + lia.
    + intros x Hx. rewrite <- EB. destruct (In_nth packed x 0 Hx) as (i & Hi & <-).
      specialize (Hb (ip + np + i) ltac:(lia)). rewrite app_nth2 in Hb by lia.
      replace (ip + np + i - length kept) with i in Hb by lia. rewrite app_nth1 in Hb by lia. exact Hb.
  - cbv zeta. rewrite <- Lf, <- failed_first_of.
    assert (Lff : length (failed_first fl 0) <= length fl).
    { rewrite failed_first_of. unfold StepModel.failed_of. rewrite <- (seq_length (length fl) 0) at 2. apply filter_le. }
    destruct (C13_merge kept packed dropped (skipn (length flags) rp) (length flags) fl ip np h P Sk Sp Lk' ltac:(lia) ltac:(cbv zeta; lia))
      as (h' & E1 & E2 & E3 & E4 & _).
    exists h'. split; [exact E1|]. cbv zeta in E2.
    assert (Nf : forall i, i < ip + np + length (failed_first fl 0) ->
       nth i (firstn (ip + np + length (failed_first fl 0)) h') 0 = nth i h' 0).
    { intros i Hi. rewrite <- (firstn_skipn (ip + np + length (failed_first fl 0)) h') at 2. rewrite app_nth1; [reflexivity|].
      rewrite (is_perm_length _ _ E2). exact Hi. }
    destruct (perm_permutes _ _ E2) as [Q1 Q2]. split; [split|].
    + intros i Hi. rewrite <- Nf by exact Hi. apply Q1. exact Hi.
    + intros i j Hi Hj e. apply Q2; auto. rewrite !Nf by assumption. exact e.
    + exists (ip + length (failed_first fl 0)). split; [lia|]. intros u Hu.
      assert (LL : length h' >= ip + np + length (failed_first fl 0)).
      { pose proof (is_perm_length _ _ E2) as X. rewrite firstn_length in X. lia. }
      apply (E4 u); [exact Hu|]. apply nth_error_nth'. lia.
Qed.

(** Without locking (restart.c 652-700): the retained vectors follow the first
    restartSize, which hold every marked pair. *)
Theorem C52_soft_permutations : forall flags moved numEvals basisSize rp h flags' nc rp' h' ip np,
  basisSize <= length flags -> numEvals <= length flags ->
  (forall p, basisSize <= p < numEvals -> nth_error flags p = Some UNCONVERGED) ->
  basisSize <= length rp -> basisSize <= length h ->
  soft_count flags moved numEvals 0 0 = Some (flags', nc) ->
  soft_perm flags' nc basisSize 0 0 0 rp = Some rp' ->
  invert_loop rp' basisSize 0 h = Some h' ->
  Nat.min numEvals basisSize <= ip -> nc <= ip -> ip + np <= basisSize ->
  selects basisSize (ip + np) ip np ip (at_ rp') /\
  permutes (ip + np) (at_ h') /\ together ip np (ip + np) (at_ h') /\
  forall i, i < ip + np -> nth (nth i h' 0) rp' 0 = i.
Proof.
  intros flags moved ne bs rp h flags' nc rp' h' ip np H1 H2 H3 H4 H5 E1 E2 E3 Hm Hnc Hn.
  assert (K : forall k, ip <= k <= bs -> is_perm (firstn k rp') k /\ is_perm (firstn k h') k).
  { intros k Hk. destruct (C13_soft_kept flags moved ne bs H1 H2 H3 rp h H4 H5 k 0 [] flags' nc rp' h' E1 E2 E3)
      as (P1 & P2 & _); [lia|cbn; lia|lia|]. split; assumption. }
  destruct (C13_soft_locking flags moved ne bs H1 H2 H3 rp h H4 H5)
    as (f2 & n2 & r2 & h2 & X1 & X2 & X3 & _ & _ & _ & _ & Un & _).
  rewrite E1 in X1. injection X1 as <- <-. rewrite E2 in X2. injection X2 as <-. rewrite E3 in X3. injection X3 as <-.
  assert (Lr : bs <= length rp') by (destruct (K bs ltac:(lia)) as [P _]; apply is_perm_length in P; rewrite firstn_length in P; lia).
  assert (Lh : bs <= length h') by (destruct (K bs ltac:(lia)) as [_ P]; apply is_perm_length in P; rewrite firstn_length in P; lia).
  assert (Nf : forall l k i, bs <= length l -> i < k <= bs -> nth i (firstn k l) 0 = nth i l 0).
  { intros l k i Hl Hi. rewrite <- (firstn_skipn k l) at 2. rewrite app_nth1; [reflexivity|]. rewrite firstn_length. lia. }
  assert (Fix : forall l, (forall k, ip <= k <= bs -> is_perm (firstn k l) k) -> bs <= length l ->
            forall u, ip <= u < bs -> nth u l 0 = u).
  { intros l Hl Ll u Hu. destruct (perm_permutes _ _ (Hl (S u) ltac:(lia))) as [Q1 Q2]. specialize (Q1 u ltac:(lia)).
    rewrite Nf in Q1 by lia. destruct (Nat.eq_dec (nth u l 0) u) as [e|ne']; [exact e|exfalso].
    assert (I : In (nth u l 0) (firstn u l)).
    { apply (is_perm_in _ _ _ (Hl u ltac:(lia))). lia. }
    destruct (In_nth _ _ 0 I) as (j & Hj & ej). rewrite firstn_length in Hj.
    assert (j = u); [|lia]. apply Q2; [lia|lia|]. rewrite !Nf by lia. rewrite Nf in ej by lia. exact ej. }
  assert (Inv : forall i, i < ip + np -> nth (nth i h' 0) rp' 0 = i).
  { intros i Hi. destruct (perm_permutes _ _ (Logic.proj2 (K bs ltac:(lia)))) as [Q1 _]. specialize (Q1 i ltac:(lia)).
    rewrite Nf in Q1 by lia. apply nth_error_nth.
    apply (Un _ i); [exact Q1|lia|]. apply nth_error_nth'. lia. }
  destruct (perm_permutes _ _ (Logic.proj1 (K (ip + np) ltac:(lia)))) as [Q1 Q2].
  destruct (perm_permutes _ _ (Logic.proj2 (K (ip + np) ltac:(lia)))) as [R1 R2].
  split; [|split; [|split; [|exact Inv]]].
  - split; [lia|]. split; [lia|]. split; [|split].
    + intros i j Hi Hj e. apply Q2; auto. rewrite !Nf by lia. exact e.
    + intros u Hu. apply Fix; [intros k Hk; now apply K|exact Lr|lia].
    + intros k Hk [C|C]; [|lia]. destruct (perm_permutes _ _ (Logic.proj1 (K ip ltac:(lia)))) as [S1 _].
      specialize (S1 k C). rewrite Nf in S1 by lia. exact S1.
  - split.
    + intros i Hi. specialize (R1 i Hi). rewrite Nf in R1 by lia. exact R1.
    + intros i j Hi Hj e. apply R2; auto. rewrite !Nf by lia. exact e.
  - exists ip. split; [lia|]. intros u Hu. apply Fix; [intros k Hk; now apply K|exact Lh|lia].
Qed.
