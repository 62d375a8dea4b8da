(** Lemmas on blocks of columns in a flat array. *)
From Coq Require Import List Arith Bool Lia.
From Verif Require Import Base CopyModel CopyProofs PropsCopy SvdsModel.
Import ListNotations.

Definition cols {A} (m : nat) (cs : list (list A)) : Prop := Forall (fun c => length c = m) cs.

Lemma cols_length : forall A m (cs : list (list A)), cols m cs -> length (concat cs) = m * length cs.
Proof.
  induction 1 as [|c cs H F IH]; cbn [concat length]; [lia|]. rewrite app_length, IH, H. nia.
Qed.

Lemma read_at_mid : forall A (a b c : list A), read_at (a ++ b ++ c) (length a) (length b) = Some b.
Proof.
  intros. unfold read_at. rewrite !app_length.
  rewrite (proj2 (Nat.leb_le _ _)) by lia. f_equal.
  rewrite skipn_app, skipn_all, Nat.sub_diag. cbn [skipn app].
  rewrite firstn_app, firstn_all, Nat.sub_diag. cbn [firstn]. apply app_nil_r.
Qed.

Lemma write_at_mid : forall A (a b b' c : list A), length b' = length b ->
  write_at (a ++ b ++ c) (length a) b' = Some (a ++ b' ++ c).
Proof.
  intros A a b b' c H. unfold write_at. rewrite !app_length, H.
  rewrite (proj2 (Nat.leb_le _ _)) by lia. f_equal.
  rewrite firstn_app, firstn_all, Nat.sub_diag. cbn [firstn]. rewrite app_nil_r. f_equal. f_equal.
  rewrite app_assoc, skipn_app. rewrite <- app_length, skipn_all, Nat.sub_diag. reflexivity.
Qed.

Lemma read_at_eq : forall A (mem a b c : list A) p l, mem = a ++ b ++ c -> p = length a -> l = length b ->
  read_at mem p l = Some b.
Proof. intros; subst. apply read_at_mid. Qed.
Lemma write_at_eq : forall A (mem a b b' c : list A) p, mem = a ++ b ++ c -> p = length a ->
  length b' = length b -> write_at mem p b' = Some (a ++ b' ++ c).
Proof. intros; subst. apply write_at_mid; auto. Qed.

(** Columns made of three parts; the middle one is read or replaced. *)
Definition part3 {A} := (list A * list A * list A)%type.
Definition join3 {A} (t : @part3 A) : list A := fst (fst t) ++ snd (fst t) ++ snd t.
Definition mid {A} (t : @part3 A) : list A := snd (fst t).
Definition shaped {A} (off m ld : nat) (t : @part3 A) : Prop :=
  length (fst (fst t)) = off /\ length (mid t) = m /\ length (join3 t) = ld.

Lemma read_cols_mid : forall A off m ld (ts : list (@part3 A)) pfx rest,
  Forall (shaped off m ld) ts ->
  read_cols (pfx ++ concat (map join3 ts) ++ rest) (length pfx + off) m ld (length ts) = Some (map mid ts).
Proof.
  intros A off m ld ts. induction ts as [|[[a b] c] ts IH]; intros pfx rest F; cbn [length read_cols]; [auto|].
  inversion_clear F as [|? ? (H1 & H2 & H3) F']. cbn [map concat].
  change (join3 (a, b, c)) with (a ++ b ++ c) in *. change (mid (a, b, c)) with b in *. cbn [fst] in H1.
  rewrite (read_at_eq A _ (pfx ++ a) b (c ++ concat (map join3 ts) ++ rest))
    by (rewrite ?app_length, <- ?app_assoc; auto; lia). cbn [bind].
  replace (pfx ++ ((a ++ b ++ c) ++ concat (map join3 ts)) ++ rest)
    with ((pfx ++ a ++ b ++ c) ++ concat (map join3 ts) ++ rest) by (rewrite <- !app_assoc; reflexivity).
  replace (length pfx + off + ld) with (length (pfx ++ a ++ b ++ c) + off) by (rewrite (app_length pfx); lia).
  rewrite IH by auto. reflexivity.
Qed.

Definition replaced {A} (c : list A) (t : @part3 A) : @part3 A := (fst (fst t), c, snd t).
Fixpoint replace_all {A} (cs : list (list A)) (ts : list (@part3 A)) : list (@part3 A) :=
  match cs, ts with c :: cs', t :: ts' => replaced c t :: replace_all cs' ts' | _, _ => ts end.

Lemma write_cols_mid : forall A off m ld (cs : list (list A)) ts pfx rest,
  Forall (shaped off m ld) ts -> cols m cs -> length cs = length ts ->
  write_cols (pfx ++ concat (map join3 ts) ++ rest) (length pfx + off) ld cs =
  Some (pfx ++ concat (map join3 (replace_all cs ts)) ++ rest).
Proof.
  intros A off m ld cs. induction cs as [|d cs IH]; intros [|[[a b] c] ts] pfx rest F C L;
    cbn [length] in L; try lia; cbn [write_cols replace_all]; [auto|].
  inversion_clear F as [|? ? (H1 & H2 & H3) F']. inversion_clear C as [|? ? Hd C'].
  cbn [map concat]. change (join3 (replaced d (a, b, c))) with (a ++ d ++ c).
  change (join3 (a, b, c)) with (a ++ b ++ c) in *. change (mid (a, b, c)) with b in *. cbn [fst] in H1.
  rewrite (write_at_eq A _ (pfx ++ a) b d (c ++ concat (map join3 ts) ++ rest))
    by (rewrite ?app_length, <- ?app_assoc; auto; lia). cbn [bind].
  replace ((pfx ++ a) ++ d ++ c ++ concat (map join3 ts) ++ rest)
    with ((pfx ++ a ++ d ++ c) ++ concat (map join3 ts) ++ rest) by (rewrite <- !app_assoc; reflexivity).
  replace (length pfx + off + ld) with (length (pfx ++ a ++ d ++ c) + off)
    by (rewrite !app_length in *; lia).
  rewrite IH by (auto; lia). rewrite <- !app_assoc. reflexivity.
Qed.

(** Whole columns. *)
Definition whole {A} (c : list A) : @part3 A := ([], c, []).
Lemma join_whole : forall A (cs : list (list A)), map join3 (map whole cs) = cs.
Proof.
  intros. rewrite map_map. unfold join3, whole. cbn [fst snd app].
  transitivity (map (fun c => c) cs); [apply map_ext; intros; apply app_nil_r|apply map_id].
Qed.
Lemma whole_shaped : forall A m (cs : list (list A)), cols m cs -> Forall (shaped 0 m m) (map whole cs).
Proof.
  intros A m cs C. apply Forall_map. eapply Forall_impl; [|apply C]. intros c H.
  unfold shaped, mid, join3, whole. cbn [fst snd app length]. rewrite app_nil_r. auto.
Qed.
Lemma replace_whole : forall A (cs ds : list (list A)), length cs = length ds ->
  replace_all cs (map whole ds) = map whole cs.
Proof.
  induction cs as [|c cs IH]; intros [|d ds] L; cbn [length] in L; try lia; [auto|].
  cbn [map replace_all]. rewrite IH by lia. reflexivity.
Qed.

Lemma read_whole : forall A m (cs : list (list A)) pfx rest, cols m cs ->
  read_cols (pfx ++ concat cs ++ rest) (length pfx) m m (length cs) = Some cs.
Proof.
  intros A m cs pfx rest C.
  pose proof (read_cols_mid A 0 m m (map whole cs) pfx rest (whole_shaped _ _ _ C)) as R.
  rewrite join_whole, map_length, Nat.add_0_r, map_map in R. rewrite R. f_equal. apply map_id.
Qed.
Lemma write_whole : forall A m (cs ds : list (list A)) pfx rest, cols m cs -> cols m ds ->
  length cs = length ds ->
  write_cols (pfx ++ concat ds ++ rest) (length pfx) m cs = Some (pfx ++ concat cs ++ rest).
Proof.
  intros A m cs ds pfx rest C D L.
  pose proof (write_cols_mid A 0 m m cs (map whole ds) pfx rest (whole_shaped _ _ _ D) C) as R.
  rewrite join_whole, map_length, Nat.add_0_r, replace_whole, join_whole in R by auto. apply R; auto.
Qed.

(** A list cut in columns. *)
Lemma cut : forall A m n (l : list A), m * n <= length l ->
  exists cs rest, cols m cs /\ length cs = n /\ l = concat cs ++ rest.
Proof.
  induction n as [|n IH]; intros l H.
  - exists [], l. repeat split; auto. constructor.
  - destruct (IH (skipn m l)) as (cs & rest & C & L & E).
    { rewrite skipn_length. nia. }
    exists (firstn m l :: cs), rest. repeat split.
    + constructor; auto. rewrite firstn_length. nia.
    + cbn. lia.
    + cbn [concat]. rewrite <- app_assoc, <- E. symmetry. apply firstn_skipn.
Qed.

(** Writing columns over anything of the right size. *)
Lemma write_over : forall A m (cs : list (list A)) pfx old rest, cols m cs ->
  length old = m * length cs ->
  write_cols (pfx ++ old ++ rest) (length pfx) m cs = Some (pfx ++ concat cs ++ rest).
Proof.
  intros A m cs pfx old rest C L.
  destruct (cut A m (length cs) old) as (ds & r & D & Ld & E); [lia|].
  assert (r = []).
  { pose proof (cols_length _ _ _ D) as Q. apply (f_equal (@length A)) in E. rewrite app_length in E.
    destruct r; [auto|]. cbn [length] in E. nia. }
  subst r. rewrite app_nil_r in E. subst old. apply write_whole; auto.
Qed.

(** Num_copy_matrix with the leading dimensions equal to the rows moves one block. *)
Lemma copy_flat : forall A (mem : list A) x m n y,
  x + m * n <= length mem -> y + m * n <= length mem ->
  exec mem (copy_matrix x m n m y m) =
  Some (firstn y mem ++ firstn (m * n) (skipn x mem) ++ skipn (y + m * n) mem).
Proof.
  intros A mem x m n y HX HY.
  destruct (C30_copy_overlapping A mem x y m n m) as (mem' & E & (L & K & O)); try lia.
  { intros i j Hi Hj. assert (i * m + j < m * n) by nia. lia. }
  { intros i j Hi Hj. assert (i * m + j < m * n) by nia. lia. }
  rewrite E. f_equal. apply nth_error_ext. intros p.
  destruct (Nat.lt_ge_cases p y) as [P1|P1].
  - rewrite O by (intros; lia).
    rewrite nth_error_app1 by (rewrite firstn_length; lia).
    symmetry. rewrite <- (firstn_skipn y mem) at 2. rewrite nth_error_app1; auto. rewrite firstn_length. lia.
  - rewrite nth_error_app2 by (rewrite firstn_length; lia).
    replace (length (firstn y mem)) with y by (rewrite firstn_length; lia).
    assert (Lm : length (firstn (m * n) (skipn x mem)) = m * n) by (rewrite firstn_length, skipn_length; lia).
    destruct (Nat.lt_ge_cases (p - y) (m * n)) as [P2|P2].
    + rewrite nth_error_app1 by lia.
      assert (M0 : m <> 0) by (intros ->; lia).
      pose proof (Nat.div_mod (p - y) m M0) as Q. pose proof (Nat.mod_upper_bound (p - y) m M0).
      assert (Hd : (p - y) / m < n) by (apply Nat.div_lt_upper_bound; lia).
      replace p with (y + (p - y) / m * m + (p - y) mod m) at 1 by nia.
      rewrite K by auto.
      replace (x + (p - y) / m * m + (p - y) mod m) with (x + (p - y)) by nia.
      transitivity (nth_error (skipn x mem) (p - y)).
      * rewrite <- (firstn_skipn x mem) at 1. rewrite nth_error_app2 by (rewrite firstn_length; lia).
        f_equal. rewrite firstn_length. lia.
      * rewrite <- (firstn_skipn (m * n) (skipn x mem)) at 1. rewrite nth_error_app1 by lia. reflexivity.
    + rewrite nth_error_app2 by lia. rewrite Lm.
      rewrite O by (intros i j Hi Hj; assert (i * m + j < m * n) by nia; lia).
      rewrite <- (firstn_skipn (y + m * n) mem) at 1. rewrite nth_error_app2 by (rewrite firstn_length; lia).
      f_equal. rewrite firstn_length. lia.
Qed.

(** The same on concatenations. *)
Lemma copy_eq : forall A (mem a b c : list A) m n x y,
  mem = a ++ b ++ c -> x = length a -> length b = m * n -> y + m * n <= length mem ->
  exec mem (copy_matrix x m n m y m) = Some (firstn y mem ++ b ++ skipn (y + m * n) mem).
Proof.
  intros A mem a b c m n x y E -> Hb Hy.
  assert (length a + m * n <= length mem) by (subst mem; rewrite !app_length; lia).
  rewrite copy_flat by auto. f_equal. f_equal. f_equal. subst mem.
  rewrite skipn_app, skipn_all, Nat.sub_diag. cbn [skipn app].
  rewrite <- Hb, firstn_app, firstn_all, Nat.sub_diag. cbn [firstn]. apply app_nil_r.
Qed.

Lemma firstn_pre : forall A (a b : list A) k, k = length a -> firstn k (a ++ b) = a.
Proof. intros A a b k ->. rewrite firstn_app, firstn_all, Nat.sub_diag. cbn [firstn]. apply app_nil_r. Qed.
Lemma skipn_pre : forall A (a b : list A) k, k = length a -> skipn k (a ++ b) = b.
Proof. intros A a b k ->. rewrite skipn_app, skipn_all, Nat.sub_diag. reflexivity. Qed.

Lemma mapi_length : forall B C (f : nat -> B -> C) l i, length (mapi f i l) = length l.
Proof. induction l as [|x l IH]; intros i; cbn; auto. Qed.
Lemma mapi_cols : forall A m (f : nat -> list A -> list A) l i,
  (forall i c, In c l -> length (f i c) = m) -> cols m (mapi f i l).
Proof.
  induction l as [|x l IH]; intros i H; cbn [mapi]; constructor.
  - apply H. left; auto.
  - apply IH. intros j c Hc. apply H. right; auto.
Qed.
