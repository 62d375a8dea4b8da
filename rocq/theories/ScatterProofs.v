(** Proof device: loops that write each index into one of several consecutive
    regions of an array.  Not a model of any function; the loops of
    RestartModel.v and SelectModel.v are shown to be instances. *)
From Verif Require Import Base.
From Coq Require Import List Arith Lia Bool Permutation Sorted.
Import ListNotations.

Definition bump (b : nat -> nat) (c : nat) : nat -> nat :=
  fun x => if x =? c then S (b x) else b x.

Fixpoint scatter (cs : list nat) (i : nat) (b : nat -> nat) (rp : list nat) : option (list nat) :=
  match cs with
  | [] => Some rp
  | c :: t => rp' <- put rp (b c) i; scatter t (S i) (bump b c) rp'
  end.

Fixpoint where_is (c : nat) (cs : list nat) (i : nat) : list nat :=
  match cs with
  | [] => []
  | x :: t => if x =? c then i :: where_is c t (S i) else where_is c t (S i)
  end.

Definition regions_apart (cs : list nat) (i : nat) (b : nat -> nat) : Prop :=
  forall c c' m m', m < length (where_is c cs i) -> m' < length (where_is c' cs i) ->
    b c + m = b c' + m' -> c = c'.

Lemma where_is_cons : forall c x t i,
  where_is c (x :: t) i = if x =? c then i :: where_is c t (S i) else where_is c t (S i).
Proof. reflexivity. Qed.

Lemma scatter_spec : forall cs i b rp,
  (forall c m, m < length (where_is c cs i) -> b c + m < length rp) ->
  regions_apart cs i b ->
  exists rp', scatter cs i b rp = Some rp' /\ length rp' = length rp /\
    (forall c m x, nth_error (where_is c cs i) m = Some x -> nth_error rp' (b c + m) = Some x) /\
    (forall q, (forall c m, m < length (where_is c cs i) -> q <> b c + m) ->
       nth_error rp' q = nth_error rp q).
Proof.
  induction cs as [|c0 t IH]; intros i b rp Hr Ha.
  - exists rp. cbn. repeat split; auto. intros c m x H. destruct m; discriminate.
  - cbn [scatter].
    assert (H0 : b c0 < length rp).
    { specialize (Hr c0 0). rewrite where_is_cons, Nat.eqb_refl in Hr. cbn in Hr. lia. }
    rewrite (put_some _ _ _ _ H0). cbn [bind].
    assert (HL : forall c m, m < length (where_is c t (S i)) ->
       bump b c0 c + m = b c + (if c0 =? c then S m else m) /\
       (if c0 =? c then S m else m) < length (where_is c (c0 :: t) i)).
    { intros c m H. rewrite where_is_cons. unfold bump. rewrite (Nat.eqb_sym c c0).
      destruct (c0 =? c); cbn [length]; split; lia. }
    destruct (IH (S i) (bump b c0) (upd rp (b c0) i)) as (rp' & E & L & Hw & Hk).
    + intros c m H. rewrite length_upd. destruct (HL c m H) as [-> H2]. now apply Hr.
    + intros c c' m m' H H' He. destruct (HL c m H) as [E1 H1]. destruct (HL c' m' H') as [E2 H2].
      rewrite E1, E2 in He. eapply Ha; eauto.
    + exists rp'. split; [exact E|]. split; [rewrite L; apply length_upd|]. split.
      * intros c m x H. rewrite where_is_cons in H. destruct (c0 =? c) eqn:Ec.
        -- apply Nat.eqb_eq in Ec; subst c. destruct m as [|m].
           ++ injection H as <-. rewrite Nat.add_0_r. rewrite Hk.
              ** now apply nth_error_upd_eq.
              ** intros c m Hm He. destruct (HL c m Hm) as [E1 H1]. rewrite E1 in He.
                 assert (H00 : 0 < length (where_is c0 (c0 :: t) i))
                   by (rewrite where_is_cons, Nat.eqb_refl; cbn; lia).
                 assert (c0 = c) by (apply (Ha c0 c 0 (if c0 =? c then S m else m)); auto; lia).
                 subst c. rewrite Nat.eqb_refl in He. lia.
           ++ cbn in H. specialize (Hw c0 m x H). unfold bump in Hw. rewrite Nat.eqb_refl in Hw.
              now rewrite Nat.add_succ_r.
        -- specialize (Hw c m x H). unfold bump in Hw. now rewrite Nat.eqb_sym, Ec in Hw.
      * intros q Hq. rewrite Hk.
        -- apply nth_error_upd_neq. intro He. apply (Hq c0 0).
           ++ rewrite where_is_cons, Nat.eqb_refl; cbn; lia.
           ++ lia.
        -- intros c m Hm. destruct (HL c m Hm) as [E1 H1]. rewrite E1. now apply Hq.
Qed.

(** Positions of a class: exactly the indices with that class, increasing. *)
Lemma where_is_in : forall c cs i x,
  In x (where_is c cs i) <-> i <= x /\ nth_error cs (x - i) = Some c.
Proof.
  induction cs as [|a t IH]; intros i x; cbn [where_is].
  - split; [intros []|]. intros [_ H]. destruct (x - i); discriminate.
  - destruct (Nat.eqb_spec a c) as [->|N].
    + cbn [In]. rewrite IH. split.
      * intros [<-|[H1 H2]]; split; try lia; [now rewrite Nat.sub_diag|].
        replace (x - i) with (S (x - S i)) by lia. exact H2.
      * intros [H1 H2]. destruct (Nat.eq_dec i x) as [E|E]; [now left|]. right. split; [lia|].
        replace (x - i) with (S (x - S i)) in H2 by lia. exact H2.
    + rewrite IH. split.
      * intros [H1 H2]; split; [lia|]. replace (x - i) with (S (x - S i)) by lia. exact H2.
      * intros [H1 H2]. destruct (Nat.eq_dec i x) as [E|E].
        -- subst x. rewrite Nat.sub_diag in H2. cbn in H2. congruence.
        -- split; [lia|]. replace (x - i) with (S (x - S i)) in H2 by lia. exact H2.
Qed.

Lemma where_is_sorted : forall c cs i, StronglySorted lt (where_is c cs i).
Proof.
  induction cs as [|a t IH]; intros i; cbn [where_is]; [constructor|].
  destruct (a =? c); [|apply IH]. constructor; [apply IH|].
  apply Forall_forall. intros x H. apply where_is_in in H. lia.
Qed.

Lemma where_is_length : forall c cs i, length (where_is c cs i) = count_occ Nat.eq_dec cs c.
Proof.
  induction cs as [|a t IH]; intros i; cbn [where_is count_occ]; [reflexivity|].
  destruct (Nat.eqb_spec a c), (Nat.eq_dec a c); try congruence; cbn; now rewrite IH.
Qed.

Lemma where_is_len_indep : forall c cs i j, length (where_is c cs i) = length (where_is c cs j).
Proof. intros; now rewrite !where_is_length. Qed.

Lemma sorted_nth_lt : forall l, StronglySorted lt l -> forall a b x y, a < b ->
  nth_error l a = Some x -> nth_error l b = Some y -> x < y.
Proof.
  induction 1 as [|h t Hs IH Hf]; intros a b x y Hab Ha Hb; [destruct a; discriminate|].
  destruct b as [|b]; [lia|]. cbn in Hb. destruct a as [|a]; cbn in Ha.
  - injection Ha as <-. rewrite Forall_forall in Hf. apply Hf. eapply nth_error_In; eauto.
  - eapply (IH a b); eauto; lia.
Qed.

(** Two or three classes make a permutation. *)
Lemma where_is_perm3 : forall cs i, Forall (fun c => c < 3) cs ->
  Permutation (where_is 0 cs i ++ where_is 1 cs i ++ where_is 2 cs i) (seq i (length cs)).
Proof.
  induction cs as [|a t IH]; intros i H; [constructor|].
  inversion H as [|? ? Ha Ht]; subst. specialize (IH (S i) Ht). cbn [where_is length seq].
  destruct a as [|[|[|a]]]; cbn [Nat.eqb]; [| | |lia].
  - cbn. now constructor.
  - cbn [app]. etransitivity; [symmetry; apply Permutation_middle|]. now constructor.
  - rewrite app_assoc. etransitivity; [symmetry; apply Permutation_middle|].
    rewrite <- app_assoc. now constructor.
Qed.

Lemma where_is_perm2 : forall cs i, Forall (fun c => c < 2) cs ->
  Permutation (where_is 0 cs i ++ where_is 1 cs i) (seq i (length cs)).
Proof.
  intros cs i H. rewrite <- (where_is_perm3 cs i).
  - replace (where_is 2 cs i) with (@nil nat); [now rewrite app_nil_r|].
    clear - H. revert i. induction H as [|a t Ha Ht IH]; intro i; [reflexivity|].
    cbn [where_is]. destruct (Nat.eqb_spec a 2); [lia|]. apply IH.
  - eapply Forall_impl; [|exact H]. cbn; lia.
Qed.

(** Two classes written one region after the other. *)
Lemma scatter_two : forall cs b rp,
  Forall (fun c => c < 2) cs -> b 0 = 0 -> b 1 = length (where_is 0 cs 0) ->
  length cs <= length rp ->
  exists rp', scatter cs 0 b rp = Some rp' /\
    rp' = where_is 0 cs 0 ++ where_is 1 cs 0 ++ skipn (length cs) rp.
Proof.
  intros cs b rp H2 B0 B1 HL.
  pose proof (Permutation_length (where_is_perm2 cs 0 H2)) as HP.
  rewrite app_length, seq_length in HP.
  assert (Hz : forall c, 2 <= c -> where_is c cs 0 = []).
  { intros c Hc. destruct (where_is c cs 0) as [|y l] eqn:E; [reflexivity|].
    assert (Hin : In y (where_is c cs 0)) by (rewrite E; now left).
    apply where_is_in in Hin. destruct Hin as [_ Hin]. apply nth_error_In in Hin.
    rewrite Forall_forall in H2. apply H2 in Hin. lia. }
  destruct (scatter_spec cs 0 b rp) as (rp' & E & L & Hw & Hk).
  - intros c m Hm. destruct c as [|[|c]]; [lia|lia|]. rewrite Hz in Hm by lia. cbn in Hm; lia.
  - intros c c' m m' Hm Hm' He.
    destruct c as [|[|c]]; [| |rewrite Hz in Hm by lia; cbn in Hm; lia];
    (destruct c' as [|[|c']]; [| |rewrite Hz in Hm' by lia; cbn in Hm'; lia]); auto; lia.
  - exists rp'. split; [exact E|]. apply nth_error_ext. intro q.
    destruct (lt_dec q (length (where_is 0 cs 0))) as [Q|Q].
    { rewrite nth_error_app1 by lia. destruct (nth_error (where_is 0 cs 0) q) as [x|] eqn:Ex.
      - rewrite <- (Hw 0 q x Ex), B0. reflexivity.
      - apply nth_error_None in Ex. lia. }
    rewrite nth_error_app2 by lia.
    destruct (lt_dec q (length cs)) as [Q2|Q2].
    { rewrite nth_error_app1 by lia.
      destruct (nth_error (where_is 1 cs 0) (q - length (where_is 0 cs 0))) as [x|] eqn:Ex.
      - rewrite <- (Hw 1 _ x Ex), B1. f_equal. lia.
      - apply nth_error_None in Ex. lia. }
    rewrite nth_error_app2 by lia. rewrite Hk.
    + replace (q - length (where_is 0 cs 0) - length (where_is 1 cs 0)) with (q - length cs) by lia.
      rewrite <- (firstn_skipn (length cs) rp) at 1. rewrite nth_error_app2; rewrite firstn_length; [|lia].
      f_equal. lia.
    + intros c m Hm. destruct c as [|[|c]]; [lia|lia|]. rewrite Hz in Hm by lia. cbn in Hm; lia.
Qed.

(** Three classes: 0 in front, then 1, then 2. *)
Lemma scatter_three : forall cs b rp,
  Forall (fun c => c < 3) cs -> b 0 = 0 -> b 1 = length (where_is 0 cs 0) ->
  b 2 = length (where_is 0 cs 0) + length (where_is 1 cs 0) ->
  length cs <= length rp ->
  exists rp', scatter cs 0 b rp = Some rp' /\
    rp' = where_is 0 cs 0 ++ where_is 1 cs 0 ++ where_is 2 cs 0 ++ skipn (length cs) rp.
Proof.
  intros cs b rp H2 B0 B1 B2 HL.
  pose proof (Permutation_length (where_is_perm3 cs 0 H2)) as HP.
  rewrite !app_length, seq_length in HP.
  assert (Hz : forall c, 3 <= c -> where_is c cs 0 = []).
  { intros c Hc. destruct (where_is c cs 0) as [|y l] eqn:E; [reflexivity|].
    assert (Hin : In y (where_is c cs 0)) by (rewrite E; now left).
    apply where_is_in in Hin. destruct Hin as [_ Hin]. apply nth_error_In in Hin.
    rewrite Forall_forall in H2. apply H2 in Hin. lia. }
  destruct (scatter_spec cs 0 b rp) as (rp' & E & L & Hw & Hk).
  - intros c m Hm. destruct c as [|[|[|c]]]; try lia. rewrite Hz in Hm by lia. cbn in Hm; lia.
  - intros c c' m m' Hm Hm' He.
    destruct c as [|[|[|c]]]; try (rewrite Hz in Hm by lia; cbn in Hm; lia);
    (destruct c' as [|[|[|c']]]; try (rewrite Hz in Hm' by lia; cbn in Hm'; lia)); auto; lia.
  - exists rp'. split; [exact E|]. apply nth_error_ext. intro q.
    destruct (lt_dec q (length (where_is 0 cs 0))) as [Q|Q].
    { rewrite nth_error_app1 by lia. destruct (nth_error (where_is 0 cs 0) q) as [x|] eqn:Ex.
      - rewrite <- (Hw 0 q x Ex), B0. reflexivity.
      - apply nth_error_None in Ex. lia. }
    rewrite nth_error_app2 by lia.
    destruct (lt_dec q (length (where_is 0 cs 0) + length (where_is 1 cs 0))) as [Q2|Q2].
    { rewrite nth_error_app1 by lia.
      destruct (nth_error (where_is 1 cs 0) (q - length (where_is 0 cs 0))) as [x|] eqn:Ex.
      - rewrite <- (Hw 1 _ x Ex), B1. f_equal. lia.
      - apply nth_error_None in Ex. lia. }
    rewrite nth_error_app2 by lia.
    destruct (lt_dec q (length cs)) as [Q3|Q3].
    { rewrite nth_error_app1 by lia.
      destruct (nth_error (where_is 2 cs 0)
        (q - length (where_is 0 cs 0) - length (where_is 1 cs 0))) as [x|] eqn:Ex.
      - rewrite <- (Hw 2 _ x Ex), B2. f_equal. lia.
      - apply nth_error_None in Ex. lia. }
    rewrite nth_error_app2 by lia. rewrite Hk.
    + rewrite <- (firstn_skipn (length cs) rp) at 1. rewrite nth_error_app2; rewrite firstn_length; [|lia].
      f_equal. lia.
    + intros c m Hm. destruct c as [|[|[|c]]]; try lia. rewrite Hz in Hm by lia. cbn in Hm; lia.
Qed.
