(** Executing moves in sequence equals moving simultaneously, when no
    destination is overwritten twice or read after being written. *)
From Coq Require Import List Arith Bool Lia.
From Verif Require Import Base CopyModel.
Import ListNotations.

Section Exec.
Context {A : Type}.
Implicit Type mem : list A.

(** Independent description of the result. *)
Definition moved mem mem' (ms : list move) : Prop :=
  length mem' = length mem /\
  (forall s t, In (s, t) ms -> nth_error mem' t = nth_error mem s) /\
  (forall p, ~ In p (map snd ms) -> nth_error mem' p = nth_error mem p).

Lemma read_all_ok : forall b mem, (forall s t, In (s, t) b -> s < length mem) ->
  exists vs, read_all mem b = Some vs /\ length vs = length b /\
    forall k s t, nth_error b k = Some (s, t) -> nth_error vs k = nth_error mem s.
Proof.
  induction b as [|[s t] b IH]; intros mem H.
  - exists []. repeat split; auto. intros [|k] ? ? E; discriminate.
  - cbn [read_all]. destruct (get_some A mem s) as [v V]; [eapply H; left; reflexivity|].
    rewrite V. cbn [bind]. destruct (IH mem) as (vs & R & L & N); [intros; eapply H; right; eauto|].
    rewrite R. cbn [bind]. exists (v :: vs). split; auto. split; [cbn; lia|].
    intros [|k] s' t' E; cbn in *.
    + injection E as <- <-. unfold get in V. auto.
    + eauto.
Qed.

Lemma write_all_ok : forall b mem vs, length vs = length b ->
  (forall s t, In (s, t) b -> t < length mem) -> NoDup (map snd b) ->
  exists mem', write_all mem b vs = Some mem' /\ length mem' = length mem /\
    (forall k s t, nth_error b k = Some (s, t) -> nth_error mem' t = nth_error vs k) /\
    (forall p, ~ In p (map snd b) -> nth_error mem' p = nth_error mem p).
Proof.
  induction b as [|[s t] b IH]; intros mem [|v vs] L H N; try discriminate.
  - exists mem. repeat split; auto. intros [|k] ? ? E; discriminate.
  - cbn [write_all]. rewrite put_some by (eapply H; left; reflexivity). cbn [bind].
    inversion N as [|? ? N1 N2]; subst.
    destruct (IH (upd mem t v) vs) as (m' & W & LE & K & O).
    + cbn in L; lia.
    + intros s' t' I. rewrite length_upd. eapply H; right; eauto.
    + auto.
    + exists m'. split; auto. rewrite length_upd in LE. split; auto. split.
      * intros [|k] s' t' E; cbn in *.
        -- injection E as <- <-. rewrite O by auto. apply nth_error_upd_eq.
           eapply H; left; reflexivity.
        -- eauto.
      * intros p P. cbn in P. rewrite O by tauto. apply nth_error_upd_neq. tauto.
Qed.

Lemma exec_batch_ok : forall b mem,
  (forall s t, In (s, t) b -> s < length mem /\ t < length mem) -> NoDup (map snd b) ->
  exists mem', exec_batch mem b = Some mem' /\ moved mem mem' b.
Proof.
  intros b mem H N. unfold exec_batch.
  destruct (read_all_ok b mem) as (vs & R & L & K); [intros s t I; exact (proj1 (H s t I))|].
  rewrite R. cbn [bind].
  destruct (write_all_ok b mem vs L) as (m' & W & LE & K' & O); auto.
  - intros s t I; exact (proj2 (H s t I)).
  - exists m'. split; auto. split; auto. split; auto. intros s t I.
    apply In_nth_error in I. destruct I as [k I]. rewrite (K' _ _ _ I). eauto.
Qed.

Lemma exec_ok : forall prog mem,
  (forall s t, In (s, t) (concat prog) -> s < length mem /\ t < length mem) ->
  NoDup (map snd (concat prog)) ->
  (forall p1 b p2, prog = p1 ++ b :: p2 -> forall s t s' t',
      In (s, t) b -> In (s', t') (concat p2) -> t <> s') ->
  exists mem', exec mem prog = Some mem' /\ moved mem mem' (concat prog).
Proof.
  induction prog as [|b prog IH]; intros mem B N F.
  - exists mem. cbn. split; auto. split; [auto|]. split; [intros ? ? []|auto].
  - cbn [exec concat] in *.
    rewrite map_app in N.
    assert (N1 : NoDup (map snd b)) by (clear - N; induction (map snd b); cbn in N; constructor;
      inversion N; subst; auto; intro; apply H1; apply in_or_app; auto).
    assert (N2 : NoDup (map snd (concat prog)))
      by (clear - N; induction (map snd b); cbn in N; auto; inversion N; auto).
    assert (N3 : forall t, In t (map snd b) -> ~ In t (map snd (concat prog))).
    { clear - N. induction (map snd b); cbn in N; intros t I J; [contradiction|].
      inversion N; subst. destruct I as [->|I]; [apply H1; apply in_or_app; auto|].
      exact (IHl H2 t I J). }
    destruct (exec_batch_ok b mem) as (m1 & E1 & L1 & K1 & O1); auto.
    { intros s t I. apply B. apply in_or_app; auto. }
    rewrite E1. cbn [bind].
    destruct (IH m1) as (m2 & E2 & L2 & K2 & O2); auto.
    { intros s t I. rewrite L1. apply B. apply in_or_app; auto. }
    { intros p1 b' p2 E s t s' t' I J. subst prog. exact (F (b :: p1) b' p2 eq_refl s t s' t' I J). }
    exists m2. split; auto. split; [congruence|]. split.
    + intros s t I. apply in_app_or in I. destruct I as [I|I].
      * rewrite O2; [eauto|]. apply N3. change t with (snd (s, t)). now apply in_map.
      * rewrite (K2 _ _ I). apply O1. intro J. apply in_map_iff in J.
        destruct J as ([s2 t2] & E & J). cbn in E; subst t2.
        exact (F [] b prog eq_refl _ _ _ _ J I eq_refl).
    + intros p P. rewrite map_app, in_app_iff in P. rewrite O2 by tauto. apply O1. tauto.
Qed.
End Exec.

(** The moves of a whole matrix, in column order. *)
Definition all_moves (x m n ldx y ldy : nat) : list move :=
  flat_map (col_moves x ldx y ldy m) (seq 0 n).

Lemma in_col : forall x ldx y ldy m i s t,
  In (s, t) (col_moves x ldx y ldy m i) <->
  exists j, j < m /\ s = x + i * ldx + j /\ t = y + i * ldy + j.
Proof.
  intros. unfold col_moves. rewrite in_map_iff. split.
  - intros (j & E & I). injection E as <- <-. apply in_seq in I. exists j. lia.
  - intros (j & J & -> & ->). exists j. split; auto. apply in_seq. lia.
Qed.
Lemma in_all : forall x m n ldx y ldy s t,
  In (s, t) (all_moves x m n ldx y ldy) <->
  exists i j, i < n /\ j < m /\ s = x + i * ldx + j /\ t = y + i * ldy + j.
Proof.
  intros. unfold all_moves. rewrite in_flat_map. split.
  - intros (i & I & H). apply in_seq in I. apply in_col in H. destruct H as (j & J).
    exists i, j. intuition.
  - intros (i & j & I & J & E). exists i. split; [apply in_seq; lia|]. apply in_col. eauto.
Qed.

Lemma concat_singly : forall b, concat (singly b) = b.
Proof. induction b; cbn; auto. unfold singly in IHb. now rewrite IHb. Qed.
Lemma concat_flat_singly : forall (f : nat -> batch) l,
  concat (flat_map (fun i => singly (f i)) l) = flat_map f l.
Proof.
  induction l; cbn; auto. rewrite concat_app, concat_singly, IHl. reflexivity.
Qed.

Lemma same_cell : forall ld i j i' j' c, j < ld -> j' < ld ->
  c + i * ld + j = c + i' * ld + j' -> i = i' /\ j = j'.
Proof.
  intros ld i j i' j' c J J' E.
  assert (i = i').
  { destruct (lt_eq_lt_dec i i') as [[H|H]|H]; auto; exfalso.
    - assert (i * ld + ld <= i' * ld) by (replace i' with (i + 1 + (i' - i - 1)) by lia; nia). lia.
    - assert (i' * ld + ld <= i * ld) by (replace i with (i' + 1 + (i - i' - 1)) by lia; nia). lia. }
  subst. split; auto. lia.
Qed.

Lemma nodup_targets : forall x m ldx y ldy l, m <= ldy -> NoDup l ->
  NoDup (map snd (flat_map (col_moves x ldx y ldy m) l)).
Proof.
  intros x m ldx y ldy l M. induction l as [|i l IH]; intro N; cbn; [constructor|].
  inversion N as [|? ? N1 N2]; subst. rewrite map_app.
  assert (D : forall (a b : list nat), NoDup a -> NoDup b -> (forall t, In t a -> ~ In t b) -> NoDup (a ++ b)).
  { clear. induction a; cbn; intros b A1 B1 D; auto. inversion A1; subst.
    constructor.
    - rewrite in_app_iff. intros [H|H]; auto. exact (D a (or_introl eq_refl) H).
    - apply IHa; auto. }
  apply D; auto.
  - unfold col_moves. rewrite map_map. cbn.
    apply FinFun.Injective_map_NoDup; [intros a b; lia | apply seq_NoDup].
  - intros t I J. apply in_map_iff in I. destruct I as ([s1 t1] & E1 & I). cbn in E1; subst t1.
    apply in_map_iff in J. destruct J as ([s2 t2] & E2 & J). cbn in E2; subst t2.
    apply in_col in I. destruct I as (j & J1 & -> & ->).
    apply in_flat_map in J. destruct J as (i' & I' & J). apply in_col in J.
    destruct J as (j' & J2 & _ & E).
    apply same_cell in E; try lia. destruct E as [-> _]. contradiction.
Qed.

(** Splitting a flattened double loop: what precedes and follows one move. *)
Lemma singly_split : forall b p1 c p2, singly b = p1 ++ c :: p2 ->
  exists b1 mv b2, b = b1 ++ mv :: b2 /\ c = [mv] /\ concat p2 = b2.
Proof.
  induction b as [|mv b IH]; intros [|q p1] c p2 E; cbn in E; try discriminate.
  - injection E as <- <-. exists [], mv, b. split; auto. split; auto. apply concat_singly.
  - injection E as <- E. destruct (IH p1 c p2 E) as (b1 & m' & b2 & -> & -> & <-).
    exists (mv :: b1), m', (concat p2). auto.
Qed.
Lemma flat_singly_split : forall (f : nat -> batch) l p1 c p2,
  flat_map (fun i => singly (f i)) l = p1 ++ c :: p2 ->
  exists l1 i l2 b1 mv b2, l = l1 ++ i :: l2 /\ f i = b1 ++ mv :: b2 /\ c = [mv] /\
    concat p2 = b2 ++ flat_map f l2.
Proof.
  intros f. induction l as [|i l IH]; intros p1 c p2 E; cbn in E.
  - destruct p1; discriminate.
  - apply app_eq_app in E. destruct E as (w & [[E1 E2]|[E1 E2]]).
    + destruct w as [|c' w].
      * cbn in E2. symmetry in E2.
        destruct (IH [] c p2 E2) as (l1 & i' & l2 & b1 & mv & b2 & -> & Fi & -> & P).
        exists (i :: l1), i', l2, b1, mv, b2. auto.
      * cbn in E2. injection E2 as <- E2.
        destruct (singly_split _ _ _ _ E1) as (b1 & mv & b2 & Fi & -> & P).
        exists [], i, l, b1, mv, b2. split; auto. split; auto. split; auto.
        subst p2. rewrite concat_app, P, concat_flat_singly. reflexivity.
    + destruct (IH w c p2 E2) as (l1 & i' & l2 & b1 & mv & b2 & -> & Fi & -> & P).
      exists (i :: l1), i', l2, b1, mv, b2. auto.
Qed.

Lemma col_split : forall x ldx y ldy m i b1 mv b2,
  col_moves x ldx y ldy m i = b1 ++ mv :: b2 ->
  mv = (x + i * ldx + length b1, y + i * ldy + length b1) /\ length b1 < m /\
  forall s t, In (s, t) b2 -> exists j, length b1 < j < m /\ s = x + i * ldx + j.
Proof.
  intros x ldx y ldy m i b1 mv b2 E.
  assert (L : length b1 < m).
  { apply (f_equal (@length _)) in E. unfold col_moves in E.
    rewrite map_length, seq_length, app_length in E. cbn in E. lia. }
  assert (G : forall k, k < m -> nth_error (b1 ++ mv :: b2) k
              = Some (x + i * ldx + k, y + i * ldy + k)).
  { intros k K. rewrite <- E. unfold col_moves.
    erewrite map_nth_error; [reflexivity|].
    rewrite (nth_error_nth' (seq 0 m) 0) by (rewrite seq_length; auto).
    rewrite seq_nth by auto. reflexivity. }
  split.
  - specialize (G (length b1) L). rewrite nth_error_app2, Nat.sub_diag in G by lia.
    cbn in G. congruence.
  - split; auto. intros s t I. apply In_nth_error in I. destruct I as [k I].
    assert (K : length b1 + S k < m).
    { apply (f_equal (@length _)) in E. unfold col_moves in E.
      rewrite map_length, seq_length, app_length in E. cbn in E.
      assert (k < length b2) by (eapply get_lt; exact I). lia. }
    specialize (G _ K). rewrite nth_error_app2 in G by lia.
    replace (length b1 + S k - length b1) with (S k) in G by lia. cbn in G.
    pose proof (eq_trans (eq_sym I) G) as Q. injection Q as -> _. exists (length b1 + S k). lia.
Qed.
