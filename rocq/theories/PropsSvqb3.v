(** C54, cases: triangular solves by substitution that meet the requirements on LAPACK
    for every size, runs of the block orthonormalization, and what does not hold of
    the code. *)
From Coq Require Import List Arith Lia Bool QArith Qcanon Field.
From Verif Require Import Base ProjModel SpecProj MatAlg SvqbModel SpecSvqb PropsSvqb PropsSvqb2 PropsProj PropsExtract2 PropsQmr4.
Import ListNotations.
Local Open Scope nat_scope.
Set Implicit Arguments.

(** ** Substitution *)
Section Sub.
Context {K : Type} (o : scal K) (L : laws o).
Add Field Kf54c : (l_field o L).
(** x 0, ..., x (k-1) of the lower triangular system a x = b. *)
Fixpoint fwd (a : nat -> nat -> K) (b : nat -> K) (k : nat) : list K :=
  match k with
  | 0 => []
  | S i => let x := fwd a b i in
           x ++ [kdiv o (ksub o (b i) (sum o i (fun l => kmul o (a i l) (nth l x (k0 o))))) (a i i)]
  end.
Lemma fwd_length a b k : length (fwd a b k) = k.
Proof. induction k as [|k IH]; cbn; auto. rewrite app_length, IH. cbn. lia. Qed.
Lemma fwd_prefix a b k l d : l < k -> nth l (fwd a b (k + d)) (k0 o) = nth l (fwd a b k) (k0 o).
Proof.
  intros Hl. induction d as [|d IH]; [rewrite Nat.add_0_r; reflexivity|].
  rewrite Nat.add_succ_r. cbn [fwd]. rewrite app_nth1 by (rewrite fwd_length; lia). exact IH.
Qed.
Lemma fwd_ok a b k : (forall i, i < k -> a i i <> k0 o) -> (forall i l, i < l -> a i l = k0 o) ->
  forall i, i < k -> sum o k (fun l => kmul o (a i l) (nth l (fwd a b k) (k0 o))) = b i.
Proof.
  intros Hd Hz i Hi. replace k with (S i + (k - S i)) at 1 by lia. rewrite (sum_split o L).
  rewrite (sum_zero o L (k - S i)).
  2:{ intros l Hl. rewrite Hz by lia. ring. }
  replace k with (S i + (k - S i)) by lia.
  rewrite (sum_ext o (S i) _ (fun l => kmul o (a i l) (nth l (fwd a b (S i)) (k0 o)))).
  2:{ intros l Hl. rewrite fwd_prefix by exact Hl. reflexivity. }
  cbn [sum fwd]. rewrite app_nth2 by (rewrite fwd_length; lia). rewrite fwd_length, Nat.sub_diag. cbn [nth].
  rewrite (sum_ext o i _ (fun l => kmul o (a i l) (nth l (fwd a b i) (k0 o)))).
  2:{ intros l Hl. rewrite app_nth1 by (rewrite fwd_length; exact Hl). reflexivity. }
  field. apply Hd. exact Hi.
Qed.
Lemma sum_rev k f : sum o k (fun l => f (k - 1 - l)) = sum o k f.
Proof.
  induction k as [|k IH]; [reflexivity|].
  transitivity (sum o (1 + k) (fun l => f (S k - 1 - l))); [reflexivity|].
  rewrite (sum_split o L). cbn [sum].
  rewrite (sum_ext o k _ (fun l => f (k - 1 - l))) by (intros; f_equal; lia).
  rewrite IH. replace (S k - 1 - 0) with k by lia. ring.
Qed.

Definition of_lists (M : list (list K)) : nat -> nat -> K := fun i j => nth i (nth j M []) (k0 o).
Definition by_columns (m : nat) (f : nat -> list K) : nat -> nat -> K :=
  let M := map f (seq 0 m) in of_lists M.
Lemma by_columns_at m f i j : j < m -> by_columns m f i j = nth i (f j) (k0 o).
Proof.
  intros Hj. unfold by_columns, of_lists.
  rewrite (nth_indep _ [] (f 0)) by (rewrite map_length, seq_length; exact Hj).
  rewrite map_nth, seq_nth by exact Hj. reflexivity.
Qed.
Definition subC (p m : nat) (F A : nat -> nat -> K) : nat -> nat -> K :=
  by_columns m (fun j => fwd (fun i l => kconj o (up o F l i)) (fun i => A i j) p).
Definition subN (p m : nat) (F A : nat -> nat -> K) : nat -> nat -> K :=
  by_columns m (fun j => rev (fwd (fun i l => if i <? l then k0 o else up o F (p - 1 - i) (p - 1 - l)) (fun i => A (p - 1 - i) j) p)).
Definition subR (n m : nat) (U X : nat -> nat -> K) : nat -> nat -> K :=
  let Y := by_columns n (fun i => fwd (fun j l => up o U l j) (fun j => X i j) m) in fun i j => Y j i.

Lemma conj_nonzero a : a <> k0 o -> kconj o a <> k0 o.
Proof. intros H E. apply H. rewrite <- (l_conj_conj o L a), E. apply (l_conj_0 o L). Qed.
Lemma up_diag F i : up o F i i = F i i.
Proof. unfold up. rewrite Nat.leb_refl. reflexivity. Qed.
Lemma up_low F i l : i < l -> up o F l i = k0 o.
Proof. intros H. unfold up. destruct (l <=? i) eqn:E; [apply Nat.leb_le in E; lia|reflexivity]. Qed.

Lemma subC_ok p m F A : nonzero_diagonal o p F -> meq p m (mul o p (adj o (up o F)) (subC p m F A)) A.
Proof.
  intros H i j Hi Hj. unfold mul, subC, adj.
  rewrite (sum_ext o p _ (fun l => kmul o (kconj o (up o F l i)) (nth l (fwd (fun i l => kconj o (up o F l i)) (fun i => A i j) p) (k0 o))))
    by (intros l Hl; rewrite by_columns_at by exact Hj; reflexivity).
  apply (@fwd_ok (fun i l => kconj o (up o F l i)) (fun i => A i j) p); [| |exact Hi].
  - intros l Hl. rewrite up_diag. apply conj_nonzero. apply H. exact Hl.
  - intros l h Hh. rewrite up_low by exact Hh. apply (l_conj_0 o L).
Qed.
Lemma subN_ok p m F A : nonzero_diagonal o p F -> meq p m (mul o p (up o F) (subN p m F A)) A.
Proof.
  intros H i j Hi Hj. unfold mul, subN.
  set (a := fun i l => if i <? l then k0 o else up o F (p - 1 - i) (p - 1 - l)).
  set (x := fwd a (fun i => A (p - 1 - i) j) p).
  rewrite <- sum_rev.
  rewrite (sum_ext o p _ (fun l => kmul o (a (p - 1 - i) l) (nth l x (k0 o)))).
  - rewrite (@fwd_ok a (fun i => A (p - 1 - i) j) p); [f_equal; lia| | |lia].
    + intros l Hl. unfold a. rewrite Nat.ltb_irrefl, up_diag. apply H. lia.
    + intros l h Hh. unfold a. apply Nat.ltb_lt in Hh. rewrite Hh. reflexivity.
  - intros l Hl. rewrite by_columns_at by exact Hj. fold a. fold x.
    rewrite rev_nth by (unfold x; rewrite fwd_length; lia).
    replace (length x - S (p - 1 - l)) with l by (unfold x; rewrite fwd_length; lia).
    f_equal. unfold a. replace (p - 1 - (p - 1 - i)) with i by lia.
    destruct (p - 1 - i <? l) eqn:E; [|reflexivity]. apply Nat.ltb_lt in E. apply up_low. lia.
Qed.
Lemma subR_ok n m U X : nonzero_diagonal o m U -> meq n m (mul o m (subR n m U X) (up o U)) X.
Proof.
  intros H i j Hi Hj. unfold mul, subR.
  rewrite (sum_ext o m _ (fun l => kmul o (up o U l j) (nth l (fwd (fun j l => up o U l j) (fun j => X i j) m) (k0 o)))).
  - apply (@fwd_ok (fun j l => up o U l j) (fun j => X i j) m); [| |exact Hj].
    + intros l Hl. rewrite up_diag. apply H. exact Hl.
    + intros l h Hh. apply up_low. exact Hh.
  - intros l Hl. rewrite by_columns_at by exact Hi. ring.
Qed.
End Sub.

(** ** Runs over the rationals *)
(** The square root of a positive square, 1 in place of the root of anything else. *)
Definition rsqrt (x : Qc) : Qc :=
  let r := Q2Qc (Z.sqrt (Qnum x) # Pos.sqrt (Qden x)) in
  if Qc_eq_bool (r * r) x && negb (Qc_eq_bool r 0) then r else 1%Qc.
Lemma rsqrt_nonzero x : rsqrt x <> 0%Qc.
Proof.
  unfold rsqrt. cbv zeta. destruct (Qc_eq_bool _ x); cbn [andb]; [|apply qcne; reflexivity].
  destruct (Qc_eq_bool (Q2Qc _) 0) eqn:E; cbn [negb]; [apply qcne; reflexivity|apply qcne; exact E].
Qed.
Definition mb (m : nat) (A B : nat -> nat -> Qc) : bool :=
  forallb (fun i => forallb (fun j => Qc_eq_bool (A i j) (B i j)) (seq 0 m)) (seq 0 m).
Lemma mb_ok m A B : mb m A B = true -> meq m m A B.
Proof.
  intros H i j Hi Hj. unfold mb in H. rewrite forallb_forall in H.
  assert (Hi' : In i (seq 0 m)) by (apply in_seq; lia). specialize (H i Hi'). rewrite forallb_forall in H.
  apply Qc_eq_bool_correct. apply H. apply in_seq. lia.
Qed.
(** Cholesky of order up to two; eigenpairs of diagonal matrices; no result otherwise. *)
Definition qpotrf (m : nat) (C : nat -> nat -> Qc) : option (nat -> nat -> Qc) :=
  let y00 := rsqrt (C 0 0) in let y01 := Qcdiv (C 0 1) y00 in
  let y11 := rsqrt (Qcminus (C 1 1) (Qcmult y01 y01)) in
  let Y := of_lists Qs [[y00]; [y01; y11]] in
  if mb m (mul Qs m (adj Qs (up Qs Y)) (up Qs Y)) (herm Qs C) &&
     forallb (fun i => negb (Qc_eq_bool (Y i i) 0)) (seq 0 m) then Some Y else None.
Definition qheev (m : nat) (C : nat -> nat -> Qc) : option ((nat -> nat -> Qc) * (nat -> Qc)) :=
  let e := map (fun i => C i i) (seq 0 m) in
  let d := fun i => nth i e 0%Qc in
  if mb m (mul Qs m (mul Qs m (one Qs) (diag Qs d)) (adj Qs (one Qs))) (herm Qs C) then Some (one Qs, d) else None.
Definition qla : lapack Qc := Lapack (subC Qs) (subN Qs) (subR Qs) qpotrf qheev.
Lemma qla_ok : lapack_ok Qs qla.
Proof.
  split.
  - intros. apply (subC_ok Qs_laws). assumption.
  - intros. apply (subN_ok Qs_laws). assumption.
  - intros. apply (subR_ok Qs_laws). assumption.
  - intros m C Y E. cbn [potrf qla] in E. unfold qpotrf in E. cbv zeta in E.
    match type of E with (if ?c then _ else _) = _ => destruct c eqn:Ec; [|discriminate] end.
    injection E as <-. apply andb_prop in Ec. destruct Ec as [E1 E2]. split; [|apply mb_ok; exact E1].
    intros i Hi. rewrite forallb_forall in E2. specialize (E2 i ltac:(apply in_seq; lia)).
    apply negb_true_iff in E2. apply qcne. exact E2.
  - intros m C Y e E. cbn [heev qla] in E. unfold qheev in E. cbv zeta in E.
    match type of E with (if ?c then _ else _) = _ => destruct c eqn:Ec; [|discriminate] end.
    injection E as <- <-. split; [|split; [|apply mb_ok; exact Ec]].
    + rewrite (adj1 Qs Qs_laws). apply (mul_1_l Qs Qs_laws).
    + rewrite (adj1 Qs Qs_laws). apply (mul_1_l Qs Qs_laws).
Qed.
Lemma q_roots m : roots_ok Qs m rsqrt (fun _ => rsqrt).
Proof. split; intros; try apply rsqrt_nonzero; reflexivity. Qed.

(** x <= y *)
Definition leq (x y : Qc) : bool := Qle_bool x y.
Notation qcall := (bortho_block Qs qla rsqrt (fun _ => rsqrt) (fun _ => false) (q 1000)
    (fun a => leq ((a - 1) * (a - 1)) (fr 64 100)) (fun a => negb (leq a 0))
    (fun a b c => leq (q 100 * a * a) (b * c))) (only parsing).

(** One locked vector of norm 2, one previous vector of norm 3, neither orthogonal to
    the two new ones. *)
Definition kl := tab [[2];[0];[0];[0]]%Z.
Definition kV := tab [[0;1;1];[3;2;1];[0;3;4];[0;0;3]]%Z.
Definition kG := tab [[4;0];[0;9]]%Z.
Definition kF := tab [[2;0];[0;3]]%Z.
Lemma k_tracks : tracks Qs 4 None 1 kl kV kG kF 2.
Proof.
  split; [|split].
  - intros i j Hi Hj. destruct j as [|[|j]]; [| |lia]; destruct i as [|[|i]]; try lia; apply qceq; vm_compute; reflexivity.
  - intros i Hi. destruct i as [|[|i]]; [| |lia]; apply qcne; vm_compute; reflexivity.
  - intros i j Hi Hj. destruct j as [|[|j]]; [| |lia]; destruct i as [|[|i]]; try lia; apply qceq; vm_compute; reflexivity.
Qed.
Example C54_case : exists st F1, qcall 4 None 1 kl 1 3 kV kG kF = Some (st, F1, 3, true) /\
  bYo st = false /\
  map (fun j => map (fun i => bV st i j) [0;1;2;3]) [1;2] = [[q 0; q 0; q 1; q 0]; [q 0; q 0; q 0; q 1]] /\
  map (fun j => br st 0 j) [0;1] = [q 3; q 4].
Proof.
  assert (H : on_run (qcall 4 None 1 kl 1 3 kV kG kF) (fun r => let '(st, F1, b, t) := r in
     (b =? 3) && t && negb (bYo st) &&
     forallb (fun x => x) (map (fun ij => Qc_eq_bool (bV st (fst ij) (snd ij)) (if fst ij =? S (snd ij) then 1 else 0)%Qc)
        [(0,1);(1,1);(2,1);(3,1);(0,2);(1,2);(2,2);(3,2)]) &&
     Qc_eq_bool (br st 0 0) (q 3) && Qc_eq_bool (br st 0 1) (q 4)) = true) by (vm_compute; reflexivity).
  apply on_run_ok in H. destruct H as ([[[st F1] b] t] & E & H). exists st, F1.
  repeat (apply andb_prop in H; destruct H as [H ?]).
  cbn [map forallb fst snd] in *. rewrite ?andb_true_iff in *.
  apply Nat.eqb_eq in H. subst b. destruct t; [|discriminate].
  split; [exact E|]. split; [apply negb_true_iff; assumption|].
  repeat match goal with h : _ /\ _ |- _ => destruct h end.
  split; repeat f_equal; apply qceq; assumption.
Qed.

(** A null vector: the eigenvalue is used, the loop is ended by its limit and the
    vector is dropped. *)
Definition nV := tab [[1;0];[0;0]]%Z.
Definition n1 := tab [[1]]%Z.
Example C54_case_null : exists st F1, qcall 2 None 0 nV 1 2 nV n1 n1 = Some (st, F1, 1, false) /\ bYo st = true.
Proof.
  assert (H : on_run (qcall 2 None 0 nV 1 2 nV n1 n1) (fun r => let '(st, F1, b, t) := r in
     (b =? 1) && negb t && bYo st) = true) by (vm_compute; reflexivity).
  apply on_run_ok in H. destruct H as ([[[st F1] b] t] & E & H). exists st, F1.
  repeat (apply andb_prop in H; destruct H as [H ?]). apply Nat.eqb_eq in H. subst b.
  destruct t; [discriminate|]. split; assumption.
Qed.
(** With a mass matrix, and two calls one after the other. *)
Definition hV := tab [[0;0;0];[3;2;1];[0;3;4];[0;0;1]]%Z.
Definition kB := tab [[1;0;0;0];[0;4;0;0];[0;0;1;0];[0;0;0;9]]%Z.
Example C54_case_history : exists st F1 st' F2,
  qcall 4 (Some kB) 0 kl 0 1 hV kG kF = Some (st, F1, 1, true) /\
  qcall 4 (Some kB) 0 kl 1 3 (fun i j => if j <? 1 then bV st i j else hV i j) (bG st) F1 = Some (st', F2, 3, true) /\
  hermitian Qs 4 kB.
Proof.
  assert (H : on_run (qcall 4 (Some kB) 0 kl 0 1 hV kG kF) (fun r => let '(st, F1, b, t) := r in
     (b =? 1) && t && on_run (qcall 4 (Some kB) 0 kl 1 3 (fun i j => if j <? 1 then bV st i j else hV i j) (bG st) F1)
        (fun r => let '(st', F2, b, t) := r in (b =? 3) && t)) = true) by (vm_compute; reflexivity).
  apply on_run_ok in H. destruct H as ([[[st F1] b] t] & E & H).
  apply andb_prop in H. destruct H as [H1 H2]. apply on_run_ok in H2. destruct H2 as ([[[st' F2] b'] t'] & E' & H2).
  apply andb_prop in H1, H2. destruct H1 as [H1 H3], H2 as [H2 H4]. apply Nat.eqb_eq in H1, H2. subst.
  exists st, F1, st', F2. split; [exact E|]. split; [exact E'|].
  apply mb_ok. vm_compute. reflexivity.
Qed.

(** The parameters of these cases meet the hypotheses of the theorems. *)
Lemma q_no : no_overflow (fun _ : Qc => false).
Proof. intros x. reflexivity. Qed.
Lemma k_conclusions : forall n lk V G F near posd close st F1, tracks Qs n None 1 lk V G F (1 + 1) ->
  bortho_block Qs qla rsqrt (fun _ => rsqrt) (fun _ => false) (q 1000) near posd close n None 1 lk 1 3 V G F = Some (st, F1, 3, true) ->
  bYo st = false ->
  tracks Qs n None 1 lk (bV st) (bG st) F1 (1 + 3) /\
  forall i j, i < 1 + 3 -> 1 + 1 <= j < 1 + 3 ->
    SpecSvqb.inner Qs n None (joined 1 lk (bV st)) (joined 1 lk (bV st)) i j = if i =? j then k1 Qs else k0 Qs.
Proof.
  intros n lk V G F near posd close st F1 T E EY. split.
  - exact (Logic.proj1 (@C54_inner_products Qc Qs Qs_laws qla qla_ok rsqrt (fun _ => rsqrt) _ _ _ _ _ n None 1 lk
      q_roots I 1 3 V G F st F1 3 true q_no ltac:(lia) T E)).
  - apply (@C54_orthonormal Qc Qs Qs_laws qla qla_ok rsqrt (fun _ => rsqrt) _ _ _ _ _ n None 1 lk
      q_roots I 1 3 V G F st F1 3 q_no ltac:(lia) T E). rewrite EY. discriminate.
Qed.

(** The guard against overflow of the norms (ortho.c 668-675): it is meant to discard
    the inner products of a new vector whose norm overflows and leave those of the
    others.  With previous vectors it does not see the norm, and what it clears are
    inner products of the previous vectors. *)
Definition bigq (a : Qc) : bool := negb (leq a (q 1000)).
Theorem C54_overflow_refuted :
  ~ (forall G nl b1 m, let G' := fix_overflow Qs bigq (q 1000) nl b1 G m in
       forall i, i < m -> bigq (G (nl + b1 + i) (nl + b1 + i)) = true ->
         G' (nl + b1 + i) (nl + b1 + i) = q 1000) /\
  ~ (forall G nl b1 m, let G' := fix_overflow Qs bigq (q 1000) nl b1 G m in
       forall i j, i < nl + b1 -> j < nl + b1 -> G' i j = G i j).
Proof.
  split; intros H.
  - specialize (H (tab [[1;0];[0;2000]]%Z) 0 1 1 0 ltac:(lia) ltac:(vm_compute; reflexivity)). revert H.
    apply qcne. vm_compute. reflexivity.
  - specialize (H (tab [[4;1;0;0];[1;4;0;2000];[0;0;1;0];[0;0;0;1]]%Z) 0 2 2 0 1 ltac:(lia) ltac:(lia)). revert H.
    apply qcne. vm_compute. reflexivity.
Qed.

(** ortho_single_iteration with an explicit Q'BQ: the solution with it is not used
    (ortho.c 884, 906), so what is left is not orthogonal to Q. *)
Theorem C54_single_refuted : exists solve n nQ Q X,
  let g := mul Qs n (adj Qs Q) Q in
  (forall y, meq nQ 1 (mul Qs nQ g (solve nQ g y)) y) /\
  exists i, i < nQ /\ sum Qs n (fun l => (Q l i * ortho_single Qs n solve nQ Q Q (Some g) X l 0%nat)%Qc) <> 0%Qc.
Proof.
  exists (fun _ g y i j => Qcdiv (y i j) (g i i)), 2, 1, (tab [[2];[0]]%Z), (tab [[1];[5]]%Z). cbv zeta. split.
  - intros y i j Hi Hj. replace i with 0 by lia. replace j with 0 by lia.
    unfold mul at 1. cbn [sum Qs kadd kmul k0].
    replace (mul Qs 2 (adj Qs (tab [[2];[0]]%Z)) (tab [[2];[0]]%Z) 0 0) with (q 4) by (apply qceq; vm_compute; reflexivity).
    field. apply qcne. vm_compute. reflexivity.
  - exists 0. split; [lia|]. apply qcne. vm_compute. reflexivity.
Qed.
