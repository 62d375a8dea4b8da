(** Shared vocabulary: checked arrays, gathering, permutations of indices.
    Nothing here models PRIMME code; it is the small language the models are
    written in. *)
From Coq Require Import List Arith Lia ZArith Bool Permutation.
Import ListNotations.

(** Option monad: [None] is undefined behaviour (out-of-bounds access), an
    error return, or exhausted fuel, according to the model using it. *)
Definition bind {A B} (x : option A) (f : A -> option B) : option B :=
  match x with Some a => f a | None => None end.
Notation "x <- e ; f" := (bind e (fun x => f))
  (at level 61, e at next level, right associativity).

(** Checked array read and write. *)
Definition get {A} (a : list A) (i : nat) : option A := nth_error a i.

Fixpoint upd {A} (a : list A) (i : nat) (v : A) : list A :=
  match a, i with
  | [], _ => []
  | _ :: t, 0 => v :: t
  | x :: t, S j => x :: upd t j v
  end.

Definition put {A} (a : list A) (i : nat) (v : A) : option (list A) :=
  if i <? length a then Some (upd a i v) else None.

(** [p] lists every index below [n] exactly once. *)
Definition is_perm (p : list nat) (n : nat) : Prop := Permutation p (seq 0 n).

(** [gathered src p dst]: position i of [dst] holds element [p[i]] of [src]. *)
Definition gathered {A} (src : list A) (p : list nat) (dst : list A) : Prop :=
  length dst = length p /\
  forall i k, nth_error p i = Some k ->
    k < length src /\ nth_error dst i = nth_error src k.

(** The same as a function (total; only used on in-range index lists). *)
Definition gather {A} (d : A) (src : list A) (p : list nat) : list A :=
  map (fun k => nth k src d) p.

(* ------------------------------------------------------------------ *)

Lemma length_upd : forall A (a : list A) i v, length (upd a i v) = length a.
Proof. induction a; intros [|i] v; simpl; auto. Qed.

Lemma nth_error_upd_eq : forall A (a : list A) i v,
  i < length a -> nth_error (upd a i v) i = Some v.
Proof. induction a; intros [|i] v H; simpl in *; try lia; auto. apply IHa; lia. Qed.

Lemma nth_error_upd_neq : forall A (a : list A) i j v,
  i <> j -> nth_error (upd a i v) j = nth_error a j.
Proof. induction a; intros [|i] [|j] v H; simpl in *; try lia; auto. Qed.

Lemma nth_error_upd : forall A (a : list A) i j v,
  i < length a ->
  nth_error (upd a i v) j = if Nat.eq_dec i j then Some v else nth_error a j.
Proof.
  intros. destruct (Nat.eq_dec i j); subst;
  [apply nth_error_upd_eq | apply nth_error_upd_neq]; auto.
Qed.

Lemma put_some : forall A (a : list A) i v,
  i < length a -> put a i v = Some (upd a i v).
Proof. intros. unfold put. destruct (Nat.ltb_spec i (length a)); auto; lia. Qed.

Lemma put_inv : forall A (a : list A) i v b,
  put a i v = Some b -> i < length a /\ b = upd a i v.
Proof.
  unfold put; intros. destruct (Nat.ltb_spec i (length a)); inversion H; auto.
Qed.

Lemma get_some : forall A (a : list A) i, i < length a -> exists v, get a i = Some v.
Proof.
  intros. unfold get. destruct (nth_error a i) eqn:E; eauto.
  apply nth_error_None in E; lia.
Qed.

Lemma get_lt : forall A (a : list A) i v, get a i = Some v -> i < length a.
Proof. unfold get; intros. apply nth_error_Some. congruence. Qed.

Lemma nth_error_ext : forall A (a b : list A),
  (forall i, nth_error a i = nth_error b i) -> a = b.
Proof.
  induction a; destruct b; intros H; auto.
  - specialize (H 0); discriminate.
  - specialize (H 0); discriminate.
  - f_equal.
    + specialize (H 0); simpl in H; congruence.
    + apply IHa. intros i. apply (H (S i)).
Qed.

Lemma nth_error_ext_len : forall A (a b : list A),
  length a = length b ->
  (forall i, i < length a -> nth_error a i = nth_error b i) -> a = b.
Proof.
  intros. apply nth_error_ext. intros i.
  destruct (lt_dec i (length a)); auto.
  transitivity (@None A); [|symmetry]; apply nth_error_None; lia.
Qed.

(** Facts on [is_perm]. *)
Lemma is_perm_length : forall p n, is_perm p n -> length p = n.
Proof. intros p n H. apply Permutation_length in H. rewrite seq_length in H. auto. Qed.

Lemma is_perm_in : forall p n k, is_perm p n -> (In k p <-> k < n).
Proof.
  intros p n k H. split; intros.
  - apply (Permutation_in k H) in H0. apply in_seq in H0. lia.
  - apply (Permutation_in k (Permutation_sym H)). apply in_seq. lia.
Qed.

Lemma is_perm_nodup : forall p n, is_perm p n -> NoDup p.
Proof. intros. apply (Permutation_NoDup (Permutation_sym H)), seq_NoDup. Qed.

Lemma is_perm_get : forall p n i, is_perm p n -> i < n ->
  exists k, nth_error p i = Some k /\ k < n.
Proof.
  intros p n i H Hi.
  destruct (nth_error p i) eqn:E.
  - exists n0. split; auto. apply nth_error_In in E. eapply is_perm_in; eauto.
  - apply nth_error_None in E. rewrite (is_perm_length _ _ H) in E. lia.
Qed.

Lemma is_perm_inj : forall p n i j k, is_perm p n ->
  nth_error p i = Some k -> nth_error p j = Some k -> i = j.
Proof.
  intros p n i j k H Hi Hj.
  eapply NoDup_nth_error.
  - eapply is_perm_nodup; eauto.
  - apply nth_error_Some. congruence.
  - congruence.
Qed.

Lemma is_perm_intro : forall p n,
  length p = n -> NoDup p -> (forall k, In k p -> k < n) -> is_perm p n.
Proof.
  intros p n HL HN HI. unfold is_perm.
  apply NoDup_Permutation_bis; auto.
  - rewrite seq_length. lia.
  - intros k Hk. apply in_seq. specialize (HI _ Hk). lia.
Qed.

Lemma gathered_gather : forall A (d : A) src p,
  (forall k, In k p -> k < length src) -> gathered src p (gather d src p).
Proof.
  intros A d src p H. unfold gathered, gather. rewrite map_length. split; auto.
  intros i k Hi.
  assert (k < length src) by (apply H; eapply nth_error_In; eauto).
  split; auto.
  rewrite (map_nth_error _ _ _ Hi). symmetry. apply nth_error_nth'. auto.
Qed.

Lemma gathered_unique : forall A (src : list A) p d1 d2,
  gathered src p d1 -> gathered src p d2 -> d1 = d2.
Proof.
  intros A src p d1 d2 [L1 H1] [L2 H2].
  apply nth_error_ext_len; [congruence|].
  intros i Hi.
  destruct (nth_error p i) eqn:E.
  - destruct (H1 _ _ E), (H2 _ _ E). congruence.
  - apply nth_error_None in E. lia.
Qed.

Lemma is_perm_cover : forall p n k, is_perm p n -> k < n ->
  exists i, i < n /\ nth_error p i = Some k.
Proof.
  intros p n k H Hk. apply (is_perm_in _ _ _ H) in Hk.
  apply In_nth_error in Hk. destruct Hk as [i Hi]. exists i. split; auto.
  rewrite <- (is_perm_length _ _ H). apply nth_error_Some. congruence.
Qed.

(** Two index lists that are permutations compose. *)
Lemma gather_is_perm : forall d p q n,
  is_perm p n -> is_perm q n -> is_perm (gather d p q) n.
Proof.
  intros d p q n Hp Hq. unfold gather, is_perm.
  apply Permutation_trans with (2 := Hp).
  apply Permutation_trans with (1 := Permutation_map _ Hq).
  replace (map (fun k => nth k p d) (seq 0 n)) with p; auto.
  rewrite <- (is_perm_length _ _ Hp).
  apply nth_error_ext_len. { rewrite map_length, seq_length; auto. }
  intros i Hi.
  rewrite (nth_error_nth' _ d Hi). symmetry.
  erewrite map_nth_error; [reflexivity|].
  rewrite (nth_error_nth' _ 0); [|rewrite seq_length; auto].
  rewrite seq_nth; auto.
Qed.

Lemma gather_Permutation : forall A (d : A) src p,
  is_perm p (length src) -> Permutation (gather d src p) src.
Proof.
  intros A d src p H. unfold gather.
  rewrite (Permutation_map _ H).
  replace (map (fun k => nth k src d) (seq 0 (length src))) with src; auto.
  apply nth_error_ext_len. { rewrite map_length, seq_length; auto. }
  intros i Hi. rewrite (nth_error_nth' _ d Hi). symmetry.
  erewrite map_nth_error; [reflexivity|].
  rewrite (nth_error_nth' _ 0); [|rewrite seq_length; auto].
  rewrite seq_nth; auto.
Qed.
