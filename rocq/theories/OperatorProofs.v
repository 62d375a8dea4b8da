(** Lemmas about OperatorModel. *)
From Coq Require Import List Arith Bool ZArith Lia.
From Verif Require Import Base OperatorModel.
Import ListNotations.

Section Lemmas.
Context {val : Type}.
Variable cast : dtype -> dtype -> val -> val.
Variable junk : list val.
Variable working : dtype.
Variable supported : dtype -> bool.
Notation heap := (@heap val).
Notation cols := (@cols val).

Lemma dtype_eqb_refl : forall t, dtype_eqb t t = true.
Proof. now intros []. Qed.
Lemma ptr_eqb_refl : forall p, ptr_eqb p p = true.
Proof. intros [a b]. unfold ptr_eqb. cbn. now rewrite !Nat.eqb_refl. Qed.

Lemma read_intro : forall (h : heap) t p n b,
  cell h (fst p) = Some b -> bty b = t -> snd p + n <= length (bcols b) ->
  read_cols h t p n = Some (firstn n (skipn (snd p) (bcols b))).
Proof.
  intros h t p n b C T L. unfold read_cols. rewrite C. cbn [bind].
  rewrite T, dtype_eqb_refl. cbn [andb].
  destruct (Nat.leb_spec (snd p + n) (length (bcols b))); auto; lia.
Qed.
Lemma read_inv : forall (h : heap) t p n x, read_cols h t p n = Some x ->
  exists b, cell h (fst p) = Some b /\ bty b = t /\ snd p + n <= length (bcols b) /\
    x = firstn n (skipn (snd p) (bcols b)) /\ length x = n.
Proof.
  intros h t p n x R. unfold read_cols in R. destruct (cell h (fst p)) as [b|]; [|discriminate].
  cbn [bind] in R. destruct (dtype_eqb_spec (bty b) t); [|discriminate]. cbn [andb] in R.
  destruct (Nat.leb_spec (snd p + n) (length (bcols b))); [|discriminate].
  injection R as <-. exists b. repeat split; auto.
  rewrite firstn_length, skipn_length. lia.
Qed.
Lemma write_intro : forall (h : heap) t p new b,
  cell h (fst p) = Some b -> bty b = t -> snd p + length new <= length (bcols b) ->
  write_cols h t p new = Some (set h (fst p) (Some (mkBuf t (splice (bcols b) (snd p) new)))).
Proof.
  intros h t p new b C T L. unfold write_cols. rewrite C. cbn [bind].
  rewrite T, dtype_eqb_refl. cbn [andb].
  destruct (Nat.leb_spec (snd p + length new) (length (bcols b))); auto; lia.
Qed.
Lemma write_inv : forall (h : heap) t p new h', write_cols h t p new = Some h' ->
  exists b, cell h (fst p) = Some b /\ bty b = t /\ snd p + length new <= length (bcols b) /\
   h' = set h (fst p) (Some (mkBuf t (splice (bcols b) (snd p) new))).
Proof.
  intros h t p n h' R. unfold write_cols in R. destruct (cell h (fst p)) as [b|]; [|discriminate].
  cbn [bind] in R. destruct (dtype_eqb_spec (bty b) t); [|discriminate]. cbn [andb] in R.
  destruct (Nat.leb_spec (snd p + length n) (length (bcols b))); [|discriminate].
  injection R as <-. exists b. auto.
Qed.
Lemma cell_set : forall (h : heap) b x c, cell (set h b x) c = if c =? b then x else cell h c.
Proof. reflexivity. Qed.

Lemma splice_length : forall (l : cols) c new, c + length new <= length l ->
  length (splice l c new) = length l.
Proof.
  intros. unfold splice. rewrite !app_length, firstn_length, skipn_length. lia.
Qed.
Lemma splice_read : forall (l : cols) c new, c + length new <= length l ->
  firstn (length new) (skipn c (splice l c new)) = new.
Proof.
  intros l c new H. unfold splice.
  rewrite skipn_app, skipn_all2 by (rewrite firstn_length; lia).
  rewrite firstn_length, Nat.min_l, Nat.sub_diag by lia. cbn [app skipn].
  rewrite firstn_app, firstn_all, Nat.sub_diag, firstn_O, app_nil_r. reflexivity.
Qed.
Lemma splice_nth : forall (l : cols) c new k, c + length new <= length l ->
  ~ (c <= k < c + length new) -> nth_error (splice l c new) k = nth_error l k.
Proof.
  intros l c new k H N. unfold splice.
  destruct (le_lt_dec c k).
  - rewrite nth_error_app2 by (rewrite firstn_length; lia).
    rewrite firstn_length, Nat.min_l by lia.
    rewrite nth_error_app2 by lia.
    transitivity (nth_error (firstn (c + length new) l ++ skipn (c + length new) l) k).
    + rewrite nth_error_app2 by (rewrite firstn_length; lia).
      rewrite firstn_length, Nat.min_l by lia. f_equal. lia.
    + now rewrite firstn_skipn.
  - rewrite nth_error_app1 by (rewrite firstn_length; lia).
    transitivity (nth_error (firstn c l ++ skipn c l) k).
    + now rewrite nth_error_app1 by (rewrite firstn_length; lia).
    + now rewrite firstn_skipn.
Qed.
Lemma splice_full : forall (l : cols) new, length new = length l -> splice l 0 new = new.
Proof.
  intros. unfold splice. cbn [firstn Nat.add app]. rewrite skipn_all2 by lia. apply app_nil_r.
Qed.
Lemma skipn_skipn' : forall (l : cols) a b, skipn a (skipn b l) = skipn (a + b) l.
Proof.
  intros l a b. revert l. induction b; intros l.
  - now rewrite Nat.add_0_r.
  - rewrite Nat.add_succ_r. destruct l; [now rewrite !skipn_nil | apply IHb].
Qed.
Lemma splice_id : forall (l : cols) c n, c + n <= length l ->
  splice l c (firstn n (skipn c l)) = l.
Proof.
  intros l c n H. unfold splice. rewrite firstn_length, skipn_length, Nat.min_l by lia.
  replace (c + n) with (n + c) by lia.
  rewrite <- skipn_skipn', firstn_skipn, firstn_skipn. reflexivity.
Qed.
End Lemmas.
