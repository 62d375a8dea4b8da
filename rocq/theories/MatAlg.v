(** Matrices as functions of row and column over the scalars of ProjModel, and
    the algebra of their products.  Nothing of the program is modelled here. *)
From Coq Require Import List Arith Bool Lia Field Setoid Morphisms.
From Verif Require Import Base ProjModel SpecProj.
Import ListNotations.

Section Mat.
Context {K : Type} (o : scal K).
Definition mx := nat -> nat -> K.

(** A B, with k the common dimension. *)
Definition mul (k : nat) (A B : mx) : mx := fun i j => sum o k (fun l => kmul o (A i l) (B l j)).
Definition adj (A : mx) : mx := fun i j => kconj o (A j i).
Definition one : mx := fun i j => if i =? j then k1 o else k0 o.
Definition diag (d : nat -> K) : mx := fun i j => if i =? j then d i else k0 o.
Definition msub (A B : mx) : mx := fun i j => ksub o (A i j) (B i j).
Definition scale (a : K) (A : mx) : mx := fun i j => kmul o a (A i j).
Definition cols (A : mx) (p : nat -> nat) : mx := fun i j => A i (p j).

(** Equal in the first m rows and n columns. *)
Definition meq (m n : nat) (A B : mx) : Prop := forall i j, i < m -> j < n -> A i j = B i j.
Definition upper_triangular (n : nat) (T : mx) : Prop := forall i j, i < n -> j < n -> j < i -> T i j = k0 o.
Definition regular (n : nat) (A : mx) : Prop := exists B, meq n n (mul n A B) one /\ meq n n (mul n B A) one.
Definition hermitian (n : nat) (A : mx) : Prop := meq n n (adj A) A.

Context (L : laws o).
Declare Scope k_scope.
Delimit Scope k_scope with k.
Notation "a + b" := (kadd o a b) : k_scope.
Notation "a * b" := (kmul o a b) : k_scope.
Notation "a - b" := (ksub o a b) : k_scope.
Notation "0" := (k0 o) : k_scope.
Notation "1" := (k1 o) : k_scope.
Add Field Kfield2 : (l_field o L).

Lemma sum_ext n f g : (forall i, i < n -> f i = g i) -> sum o n f = sum o n g.
Proof.
  induction n as [|n IH]; intros H; cbn; auto.
  rewrite IH by (intros; apply H; lia). rewrite H by lia. reflexivity.
Qed.
Lemma sum_add n f g : sum o n (fun i => f i + g i)%k = (sum o n f + sum o n g)%k.
Proof. induction n as [|n IH]; cbn; [ring|]. rewrite IH. ring. Qed.
Lemma sum_sub n f g : sum o n (fun i => f i - g i)%k = (sum o n f - sum o n g)%k.
Proof. induction n as [|n IH]; cbn; [ring|]. rewrite IH. ring. Qed.
Lemma sum_mulr n f a : sum o n (fun i => f i * a)%k = (sum o n f * a)%k.
Proof. induction n as [|n IH]; cbn; [ring|]. rewrite IH. ring. Qed.
Lemma sum_mull n f a : sum o n (fun i => a * f i)%k = (a * sum o n f)%k.
Proof. induction n as [|n IH]; cbn; [ring|]. rewrite IH. ring. Qed.
Lemma sum_zero n f : (forall i, i < n -> f i = 0%k) -> sum o n f = 0%k.
Proof.
  induction n as [|n IH]; intros H; cbn; auto.
  rewrite IH by (intros; apply H; lia). rewrite H by lia. ring.
Qed.
Lemma sum_swap m n f : sum o m (fun i => sum o n (fun j => f i j)) = sum o n (fun j => sum o m (fun i => f i j)).
Proof.
  induction m as [|m IH]; cbn.
  - symmetry. apply sum_zero. reflexivity.
  - rewrite IH, <- sum_add. reflexivity.
Qed.
(** Only one term is not zero. *)
Lemma sum_one n i f : i < n -> (forall j, j < n -> j <> i -> f j = 0%k) -> sum o n f = f i.
Proof.
  induction n as [|n IH]; intros Hi H; [lia|]. cbn. destruct (Nat.eq_dec i n) as [->|Hne].
  - rewrite sum_zero; [ring|]. intros j Hj. apply H; lia.
  - rewrite IH by (try lia; intros; apply H; lia). rewrite (H n) by lia. ring.
Qed.
Lemma sum_split m n f : sum o (m + n)%nat f = (sum o m f + sum o n (fun i => f (m + i)%nat))%k.
Proof.
  induction n as [|n IH]; cbn.
  - rewrite Nat.add_0_r. ring.
  - rewrite Nat.add_succ_r. cbn. rewrite IH. ring.
Qed.
Lemma sum_conj n f : kconj o (sum o n f) = sum o n (fun i => kconj o (f i)).
Proof.
  induction n as [|n IH]; cbn; [apply (l_conj_0 o L)|]. rewrite (l_conj_add o L), IH. reflexivity.
Qed.

Lemma conj_1 : kconj o (k1 o) = k1 o.
Proof.
  assert (H : kconj o (1 * kconj o 1)%k = kconj o (kconj o 1%k)) by (f_equal; ring).
  rewrite (l_conj_mul o L), (l_conj_conj o L) in H.
  transitivity (kconj o 1 * 1)%k; [ring|exact H].
Qed.
Lemma conj_sub a b : kconj o (a - b)%k = (kconj o a - kconj o b)%k.
Proof.
  assert (H : (kconj o (a - b) + kconj o b)%k = kconj o a).
  { rewrite <- (l_conj_add o L). f_equal. ring. }
  rewrite <- H. ring.
Qed.

Lemma meq_refl m n A : meq m n A A. Proof. intros i j _ _. reflexivity. Qed.
Lemma meq_sym m n A B : meq m n A B -> meq m n B A.
Proof. intros H i j Hi Hj. symmetry. apply H; assumption. Qed.
Lemma meq_trans m n A B C : meq m n A B -> meq m n B C -> meq m n A C.
Proof. intros H1 H2 i j Hi Hj. rewrite H1, H2 by assumption. reflexivity. Qed.

Lemma mul_meq m k n A A' B B' : meq m k A A' -> meq k n B B' -> meq m n (mul k A B) (mul k A' B').
Proof.
  intros H1 H2 i j Hi Hj. apply sum_ext. intros l Hl. rewrite H1, H2 by assumption. reflexivity.
Qed.
Lemma mul_assoc k l A B C i j : mul k A (mul l B C) i j = mul l (mul k A B) C i j.
Proof.
  unfold mul.
  transitivity (sum o k (fun p => sum o l (fun q => A i p * B p q * C q j)%k)).
  { apply sum_ext. intros p _. rewrite <- sum_mull. apply sum_ext. intros. ring. }
  rewrite sum_swap. apply sum_ext. intros q _. rewrite <- sum_mulr. reflexivity.
Qed.
Lemma mul_1_l n m A : meq n m (mul n one A) A.
Proof.
  intros i j Hi _. unfold mul, one. rewrite (sum_one n i).
  - rewrite Nat.eqb_refl. ring.
  - exact Hi.
  - intros l _ Hl. destruct (i =? l) eqn:E; [apply Nat.eqb_eq in E; congruence|ring].
Qed.
Lemma mul_1_r n m A : meq m n (mul n A one) A.
Proof.
  intros i j _ Hj. unfold mul, one. rewrite (sum_one n j).
  - rewrite Nat.eqb_refl. ring.
  - exact Hj.
  - intros l _ Hl. destruct (l =? j) eqn:E; [apply Nat.eqb_eq in E; congruence|ring].
Qed.
Lemma mul_diag_r n A d i j : j < n -> mul n A (diag d) i j = (A i j * d j)%k.
Proof.
  intros Hj. unfold mul, diag. rewrite (sum_one n j).
  - rewrite Nat.eqb_refl. reflexivity.
  - exact Hj.
  - intros l _ Hl. destruct (l =? j) eqn:E; [apply Nat.eqb_eq in E; congruence|ring].
Qed.
Lemma mul_diag_l n A d i j : i < n -> mul n (diag d) A i j = (d i * A i j)%k.
Proof.
  intros Hi. unfold mul, diag. rewrite (sum_one n i).
  - rewrite Nat.eqb_refl. reflexivity.
  - exact Hi.
  - intros l _ Hl. destruct (i =? l) eqn:E; [apply Nat.eqb_eq in E; congruence|ring].
Qed.
Lemma adj_mul k A B i j : adj (mul k A B) i j = mul k (adj B) (adj A) i j.
Proof.
  unfold adj, mul. rewrite sum_conj. apply sum_ext. intros l _. rewrite (l_conj_mul o L). ring.
Qed.
Lemma adj_adj A i j : adj (adj A) i j = A i j.
Proof. unfold adj. apply (l_conj_conj o L). Qed.
Lemma adj_meq m n A B : meq m n A B -> meq n m (adj A) (adj B).
Proof. intros H i j Hi Hj. unfold adj. rewrite H by assumption. reflexivity. Qed.
Lemma adj_one i j : adj one i j = one i j.
Proof.
  unfold adj, one. rewrite Nat.eqb_sym. destruct (i =? j); [apply conj_1|apply (l_conj_0 o L)].
Qed.
Lemma mul_msub_l k A B C i j : mul k (msub A B) C i j = msub (mul k A C) (mul k B C) i j.
Proof. unfold mul, msub. rewrite <- sum_sub. apply sum_ext. intros. ring. Qed.
Lemma mul_msub_r k A B C i j : mul k A (msub B C) i j = msub (mul k A B) (mul k A C) i j.
Proof. unfold mul, msub. rewrite <- sum_sub. apply sum_ext. intros. ring. Qed.
Lemma mul_scale_l k a A C i j : mul k (scale a A) C i j = scale a (mul k A C) i j.
Proof. unfold mul, scale. rewrite <- sum_mull. apply sum_ext. intros. ring. Qed.
Lemma mul_scale_r k a A C i j : mul k A (scale a C) i j = scale a (mul k A C) i j.
Proof. unfold mul, scale. rewrite <- sum_mull. apply sum_ext. intros. ring. Qed.
Lemma mul_cols k A B p i j : mul k A (cols B p) i j = cols (mul k A B) p i j.
Proof. reflexivity. Qed.

(** A left inverse of a regular matrix can be cancelled. *)
Lemma regular_cancel n m A X Y : regular n A -> meq n m (mul n A X) (mul n A Y) -> meq n m X Y.
Proof.
  intros (B & _ & HBA) H.
  assert (E : forall Z, meq n m (mul n B (mul n A Z)) Z).
  { intros Z i j Hi Hj. rewrite mul_assoc.
    rewrite (mul_meq n n m _ one _ Z HBA (meq_refl _ _ _)) by assumption.
    apply (mul_1_l n m); assumption. }
  intros i j Hi Hj. rewrite <- (E X), <- (E Y) by assumption.
  apply (mul_meq n n m _ _ _ _ (meq_refl _ _ _) H); assumption.
Qed.
Lemma regular_adj n A : regular n A -> regular n (adj A).
Proof.
  intros (B & H1 & H2). exists (adj B). split; intros i j Hi Hj; rewrite <- adj_mul, <- adj_one; unfold adj; f_equal.
  - apply H2; assumption.
  - apply H1; assumption.
Qed.

(** The same as equations of matrices, for rewriting. *)
Global Instance meq_equiv m n : Equivalence (meq m n).
Proof. split; [exact (meq_refl m n)|exact (meq_sym m n)|exact (meq_trans m n)]. Qed.
Global Instance mul_proper m k n : Proper (meq m k ==> meq k n ==> meq m n) (mul k).
Proof. intros A A' HA B B' HB. apply mul_meq; assumption. Qed.
Global Instance adj_proper m n : Proper (meq m n ==> meq n m) adj.
Proof. intros A B H. apply adj_meq; assumption. Qed.
Global Instance msub_proper m n : Proper (meq m n ==> meq m n ==> meq m n) msub.
Proof. intros A A' HA B B' HB i j Hi Hj. unfold msub. rewrite HA, HB by assumption. reflexivity. Qed.
Global Instance scale_proper m n a : Proper (meq m n ==> meq m n) (scale a).
Proof. intros A A' HA i j Hi Hj. unfold scale. rewrite HA by assumption. reflexivity. Qed.
Lemma mulA m n k l A B C : meq m n (mul k A (mul l B C)) (mul l (mul k A B) C).
Proof. intros i j _ _. apply mul_assoc. Qed.
Lemma adjM m n k A B : meq m n (adj (mul k A B)) (mul k (adj B) (adj A)).
Proof. intros i j _ _. apply adj_mul. Qed.
Lemma adjK m n A : meq m n (adj (adj A)) A.
Proof. intros i j _ _. apply adj_adj. Qed.
Lemma adj1 m n : meq m n (adj one) one.
Proof. intros i j _ _. apply adj_one. Qed.
Lemma mulBl m n k A B C : meq m n (mul k (msub A B) C) (msub (mul k A C) (mul k B C)).
Proof. intros i j _ _. apply mul_msub_l. Qed.
Lemma mulBr m n k A B C : meq m n (mul k A (msub B C)) (msub (mul k A B) (mul k A C)).
Proof. intros i j _ _. apply mul_msub_r. Qed.
Lemma mulSl m n k a A C : meq m n (mul k (scale a A) C) (scale a (mul k A C)).
Proof. intros i j _ _. apply mul_scale_l. Qed.
Lemma mulSr m n k a A C : meq m n (mul k A (scale a C)) (scale a (mul k A C)).
Proof. intros i j _ _. apply mul_scale_r. Qed.
End Mat.
