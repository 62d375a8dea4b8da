(** C62, continued: a LAPACK that keeps the laws, cases of the theorems of PropsLapack, and
    the second system solved with USE_ZGESV. *)
From Coq Require Import List Arith Bool ZArith Lia QArith Qcanon Field.
From Verif Require Import Base ProjModel SpecProj MatAlg PropsProj PropsQmr4 LapackModel SpecLapack PropsLapack.
Import ListNotations.
Local Open Scope nat_scope.
Local Notation fr a b := (Q2Qc (a # b)).

(** Answers that are given only when they are right: w1, w2 and the rotation by (3/5, 4/5),
    for B = I and for B = 4 I; otherwise info is 1. *)
Definition at2 (l : list Qc) : nat -> Qc := fun k => nth k l 0%Qc.
Definition zA : nat -> Qc := at2 [fr 3 5; fr 4 5; fr (-4) 5; fr 3 5].
Definition zB : nat -> Qc := at2 [fr 3 10; fr 4 10; fr (-4) 10; fr 3 10].
Definition wA : nat -> Qc := at2 [fr 1 1; fr 2 1].
Definition wB : nat -> Qc := at2 [fr 1 4; fr 1 2].
Definition mul2 (H : nat -> nat -> Qc) (z : nat -> Qc) (i j : nat) : Qc := total Qs 2 (fun k => H i k * z (2 * j + k)%nat)%Qc.
Definition two : list (nat * nat) := [(0,0); (0,1); (1,0); (1,1)].
Definition eigenb (H B : nat -> nat -> Qc) (w z : nat -> Qc) : bool :=
  forallb (fun ij => Qc_eq_bool (mul2 H z (fst ij) (snd ij)) (w (snd ij) * mul2 B z (fst ij) (snd ij))%Qc) two &&
  forallb (fun ij => Qc_eq_bool (inner Qs 2 (fun k => z (2 * fst ij + k)) (fun k => mul2 B z k (snd ij)))
                       (ident Qs (fst ij) (snd ij))) two.
Lemma eigenb_ok H B w z : eigenb H B w z = true -> eigen Qs 2 H B w z 2.
Proof.
  unfold eigenb. rewrite andb_true_iff, !forallb_forall. intros [P1 P2].
  assert (T : forall i j, i < 2 -> j < 2 -> In (i, j) two).
  { intros i j Hi Hj. unfold two. destruct i as [|[|i]], j as [|[|j]]; cbn; auto; lia. }
  split; intros i j Hi Hj.
  - specialize (P1 _ (T i j Hi Hj)). cbn [fst snd] in P1. apply Qc_eq_bool_correct in P1. exact P1.
  - specialize (P2 _ (T i j Hi Hj)). cbn [fst snd] in P2. apply Qc_eq_bool_correct in P2. exact P2.
Qed.
Definition answer (n : nat) (H B : nat -> nat -> Qc) : Z * (nat -> Qc) * (nat -> Qc) :=
  if (n =? 2) && eigenb H B wA zA then (0%Z, wA, zA)
  else if (n =? 2) && eigenb H B wB zB then (0%Z, wB, zB)
  else (1%Z, wA, zA).
Lemma answer_ok n H B w z : answer n H B = (0%Z, w, z) -> eigen Qs n H B w z n.
Proof.
  unfold answer. destruct ((n =? 2) && eigenb H B wA zA) eqn:E1.
  - intro E. injection E as <- <-. apply andb_true_iff in E1. destruct E1 as [N E1]. apply Nat.eqb_eq in N. subst n. now apply eigenb_ok.
  - destruct ((n =? 2) && eigenb H B wB zB) eqn:E2; [|discriminate].
    intro E. injection E as <- <-. apply andb_true_iff in E2. destruct E2 as [N E2]. apply Nat.eqb_eq in N. subst n. now apply eigenb_ok.
Qed.

(** Systems of order two by elimination without exchange, when its pivots are not zero and
    the first one is the larger; the factors L and U in the place of the matrix. *)
Definition piv (A : nat -> nat -> Qc) : Qc := (A 1%nat 1%nat - A 1%nat 0%nat / A 0%nat 0%nat * A 0%nat 1%nat)%Qc.
Definition can (n : nat) (A : nat -> nat -> Qc) : bool :=
  (n =? 2) && negb (Qc_eq_bool (A 0 0) 0%Qc) && negb (Qc_eq_bool (piv A) 0%Qc).
Definition sol2 (A : nat -> nat -> Qc) (b0 b1 : Qc) (i : nat) : Qc :=
  let x1 := ((b1 - A 1%nat 0%nat / A 0%nat 0%nat * b0) / piv A)%Qc in
  if i =? 0 then ((b0 - A 0%nat 1%nat * x1) / A 0%nat 0%nat)%Qc else x1.
Definition solve2 (nrhs : nat) (A : nat -> nat -> Qc) (b : nat -> Qc) (ldb : nat) : nat -> Qc :=
  fun q => let i := q mod ldb in let j := q / ldb in
    if (i <? 2) && (j <? nrhs) then sol2 A (b (ldb * j)) (b (ldb * j + 1)) i else b q.
Definition lu (a : nat -> Qc) (lda : nat) : nat -> Qc :=
  fun q => if q =? 1 then (a 1%nat / a 0%nat)%Qc else if q =? lda + 1 then piv (full a lda) else a q.
Lemma solve2_ok nrhs A b ldb : can 2 A = true -> 2 <= ldb -> solved Qs 2 nrhs A b (solve2 nrhs A b ldb) ldb.
Proof.
  intros C Hl i j Hi Hj. unfold can in C. rewrite !andb_true_iff, !negb_true_iff in C. destruct C as [[_ C1] C2].
  apply qcne in C1, C2. unfold total. cbn [seq map fold_right].
  assert (E : forall k, k < 2 -> solve2 nrhs A b ldb (ldb * j + k) = sol2 A (b (ldb * j)) (b (ldb * j + 1)) k).
  { intros k Hk. unfold solve2. destruct (place ldb k j) as [E1 E2]; [lia|]. rewrite E1, E2.
    rewrite (proj2 (Nat.ltb_lt k 2)), (proj2 (Nat.ltb_lt j nrhs)) by assumption. reflexivity. }
  rewrite !E by lia. unfold sol2. cbn [Nat.eqb]. cbn [kmul kadd k0 Qs].
  assert (E11 : (A 1%nat 1%nat = piv A + A 1%nat 0%nat / A 0%nat 0%nat * A 0%nat 1%nat)%Qc) by (unfold piv; ring).
  assert (i = 0 \/ i = 1) as [->| ->] by lia.
  - rewrite Nat.add_0_r. field. auto.
  - rewrite E11. field. auto.
Qed.
Lemma solve2_only nrhs A b ldb : only 2 nrhs ldb b (solve2 nrhs A b ldb).
Proof.
  intros q H. unfold solve2. destruct (Nat.ltb_spec (q mod ldb) 2), (Nat.ltb_spec (q / ldb) nrhs); cbn [andb]; auto. elim H. auto.
Qed.

(** Row by row forward substitution for x A = alpha b. *)
Fixpoint fsub (alpha : Qc) (A : nat -> nat -> Qc) (b : nat -> Qc) (n : nat) : nat -> Qc :=
  match n with
  | 0 => fun _ => 0%Qc
  | S j => let p := fsub alpha A b j in
    fun k => if k =? j then ((alpha * b j - total Qs j (fun k => p k * A k j)) / A j j)%Qc else p k
  end.
Lemma fsub_later alpha A b m n k : k < m -> m <= n -> fsub alpha A b n k = fsub alpha A b m k.
Proof.
  intros H1 H2. induction n as [|n IH]; [lia|]. destruct (Nat.eq_dec m (S n)) as [->|]; [reflexivity|].
  cbn [fsub]. cbv zeta. rewrite (proj2 (Nat.eqb_neq k n)) by lia. apply IH. lia.
Qed.
Lemma fsub_ok alpha A b n j : j < n -> (forall i, i < n -> A i i <> 0%Qc) -> (forall i k, k < i -> A i k = 0%Qc) ->
  total Qs n (fun k => fsub alpha A b n k * A k j)%Qc = (alpha * b j)%Qc.
Proof.
  intros Hj D U. rewrite (total_sum Qs Qs_laws).
  replace n with ((S j) + (n - S j)) at 1 by lia. rewrite (MatAlg.sum_split Qs Qs_laws).
  rewrite (MatAlg.sum_zero Qs Qs_laws (n - S j)).
  2: { intros i Hi. rewrite U by lia. cbn. ring. }
  cbn [sum]. rewrite (fsub_later alpha A b (S j) n j) by lia. cbn [fsub]. cbv zeta. rewrite Nat.eqb_refl.
  rewrite (total_sum Qs Qs_laws).
  rewrite (MatAlg.sum_ext Qs j (fun k => fsub alpha A b n k * A k j)%Qc (fun k => fsub alpha A b j k * A k j)%Qc).
  2: { intros i Hi. rewrite (fsub_later alpha A b j n i) by lia. reflexivity. }
  cbn [kadd Qs k0 kmul]. field. apply D. exact Hj.
Qed.

Definition qlap : lapack Qc := {|
  heevx_query := fun _ _ => (0%Z, 1);
  heevx := fun up n a lda => let '(i, w, z) := answer n (herm Qs up a lda) (ident Qs) in (i, a, w, z);
  heev_query := fun _ _ => (0%Z, 1);
  heev := fun up n a lda => let '(i, w, z) := answer n (herm Qs up a lda) (ident Qs) in (i, copy_matrix z n n n a lda, w);
  hegvx_query := fun _ _ => (0%Z, 1);
  hegvx := fun up n a lda b ldb => let '(i, w, z) := answer n (herm Qs up a lda) (herm Qs up b ldb) in (i, a, b, w, z);
  hegv_query := fun _ _ => (0%Z, 1);
  hegv := fun up n a lda b ldb => let '(i, w, z) := answer n (herm Qs up a lda) (herm Qs up b ldb) in (i, copy_matrix z n n n a lda, b, w);
  gesvd_query := fun _ _ => (0%Z, 1);
  gesvd := fun m n a lda ldu => if (m =? 1) && (n =? 1)
    then (0%Z, (fun q => if q =? 0 then 1%Qc else a q), (fun _ => a 0), (fun _ => 1%Qc)) else (1%Z, a, a, a);
  hetrf_query := fun _ _ => (0%Z, 1);
  hetrf := fun up n a lda => ((if can n (herm Qs up a lda) then 0%Z else 1%Z), a, fun _ => 0%Qc);
  hetrs := fun up n nrhs f lda p b ldb => if can n (herm Qs up f lda) then (0%Z, solve2 nrhs (herm Qs up f lda) b ldb) else (1%Z, b);
  gesv := fun n nrhs a lda b ldb => if can n (full a lda) then (0%Z, lu a lda, fun _ => 0%Qc, solve2 nrhs (full a lda) b ldb) else (1%Z, a, fun _ => 0%Qc, b);
  potrf := fun up n a lda => (1%Z, a);
  getrf := fun m n a lda => ((if can n (full a lda) then 0%Z else 1%Z), a, fun _ => 0%Qc);
  getrs := fun conjt n nrhs f lda p b ldb => let A := if conjt then adjoint Qs (full f lda) else full f lda in
    if can n A then (0%Z, solve2 nrhs A b ldb) else (1%Z, b);
  trsm := fun _ _ _ m n alpha a lda b ldb q =>
    let m := Z.to_nat m in let n := Z.to_nat n in let lda := Z.to_nat lda in let ldb := Z.to_nat ldb in
    if (q mod ldb <? m) && (q / ldb <? n) then fsub alpha (upper Qs a lda) (fun j => b (ldb * j + q mod ldb)) n (q / ldb) else b q |}.

Lemma trip {A B C : Type} (p : A * B * C) : p = (fst (fst p), snd (fst p), snd p).
Proof. destruct p as [[? ?] ?]. reflexivity. Qed.
Lemma can_2 n A : can n A = true -> n = 2.
Proof. unfold can. rewrite !andb_true_iff. intros [[H _] _]. now apply Nat.eqb_eq. Qed.

Theorem C62_laws_hold : lapack_laws Qs qlap /\ trsm_law Qs qlap.
Proof.
  split; [split|].
  - intros up n a lda a' w z _ _ E. cbn in E. destruct (answer _ _ _) as [[i w1] z1] eqn:A. injection E as -> <- <- <-. now apply answer_ok.
  - intros up n a lda i a' w z _ _ E. cbn in E. destruct (answer _ _ _) as [[i1 w1] z1]. injection E as _ <- _ _. apply only_refl.
  - intros up n a lda a' w Hn Hl E. cbn in E. destruct (answer _ _ _) as [[i w1] z1] eqn:A. injection E as -> <- <-.
    refine (eigen_ext Qs _ _ _ _ _ _ _ _ _ _ _ _ _ (answer_ok _ _ _ _ _ A)); auto. intros. now rewrite copy_in.
  - intros up n a lda i a' w _ _ E. cbn in E. destruct (answer _ _ _) as [[i1 w1] z1]. injection E as _ <- _. apply copy_only.
  - intros up n a lda b ldb a' b' w z _ _ _ E. cbn in E. destruct (answer _ _ _) as [[i w1] z1] eqn:A. injection E as -> <- <- <- <-. now apply answer_ok.
  - intros up n a lda b ldb i a' b' w z _ _ _ E. cbn in E. destruct (answer _ _ _) as [[i1 w1] z1]. injection E as _ <- _ _ _. apply only_refl.
  - intros up n a lda b ldb a' b' w Hn Hl _ E. cbn in E. destruct (answer _ _ _) as [[i w1] z1] eqn:A. injection E as -> <- <- <-.
    refine (eigen_ext Qs _ _ _ _ _ _ _ _ _ _ _ _ _ (answer_ok _ _ _ _ _ A)); auto. intros. now rewrite copy_in.
  - intros up n a lda b ldb i a' b' w _ _ _ E. cbn in E. destruct (answer _ _ _) as [[i1 w1] z1]. injection E as _ <- _ _. apply copy_only.
  - intros m n a lda ldu a' s u _ _ _ _ E. cbn in E. destruct (Nat.eqb_spec m 1), (Nat.eqb_spec n 1); try discriminate E. subst.
    injection E as <- <- <-. split; intros i j Hi Hj.
    + assert (i = 0) by lia. assert (j = 0) by lia. subst. cbn. rewrite Nat.mul_0_r. cbn. ring.
    + cbn in Hi, Hj. assert (i = 0) by lia. assert (j = 0) by lia. subst. apply Qc_is_canon. vm_compute. reflexivity.
  - intros m n a lda ldu i a' s u _ _ _ _ E. cbn in E. destruct (Nat.eqb_spec m 1), (Nat.eqb_spec n 1); cbn in E; injection E as _ <- _ _; try apply only_refl.
    subst. intros q H. destruct (Nat.eqb_spec q 0) as [->|]; [|reflexivity]. elim H.
    destruct lda; [cbn; lia|]. rewrite Nat.mod_small, Nat.div_small by lia. lia.
  - intros up n nrhs a lda f p p' b ldb x Hn Hl Hb E _ S. cbn in E, S. injection E as E <- _. destruct (can n _) eqn:C; [|discriminate E].
    injection S as <-. pose proof (can_2 _ _ C). subst n. now apply solve2_ok.
  - intros up n nrhs f lda p b ldb i x _ _ _ S. cbn in S. destruct (can n _) eqn:C; injection S as _ <-; [|apply only_refl].
    pose proof (can_2 _ _ C). subst n. apply solve2_only.
  - intros n nrhs a lda b ldb a' p x _ _ Hb S. cbn in S. destruct (can n _) eqn:C; [|discriminate S]. injection S as <- <- <-.
    pose proof (can_2 _ _ C). subst n. now apply solve2_ok.
  - intros n nrhs a lda b ldb i a' p x _ _ _ S. cbn in S. destruct (can n _) eqn:C; injection S as _ _ _ <-; [|apply only_refl].
    pose proof (can_2 _ _ C). subst n. apply solve2_only.
  - intros conjt n nrhs a lda f p p' b ldb x _ _ Hb E _ S. cbn in E, S. injection E as _ <- _.
    destruct (can n _) eqn:C; [|discriminate S]. injection S as <-. pose proof (can_2 _ _ C). subst n. now apply solve2_ok.
  - intros m n alpha a lda b ldb D Hl Hm Hb x. split.
    + intros r j Hr Hj.
      assert (E : forall k, k < n -> x (ldb * k + r) = fsub alpha (upper Qs a lda) (fun j => b (ldb * j + r)) n k).
      { intros k Hk. unfold x. cbn [trsm qlap]. rewrite !Nat2Z.id. cbv zeta. destruct (place ldb r k) as [E1 E2]; [lia|].
        rewrite E1, E2, !ltb_t by assumption. reflexivity. }
      etransitivity; [|apply (fsub_ok alpha (upper Qs a lda) (fun j => b (ldb * j + r)) n j Hj)].
      * apply (total_ext Qs). intros k Hk. rewrite E by assumption. reflexivity.
      * intros i Hi. unfold upper. rewrite Nat.leb_refl. now apply D.
      * intros i k Hk. unfold upper. rewrite (proj2 (Nat.leb_gt i k)) by lia. reflexivity.
    + intros q H. unfold x. cbn [trsm qlap]. rewrite !Nat2Z.id. cbv zeta.
      destruct (Nat.ltb_spec (q mod ldb) m), (Nat.ltb_spec (q / ldb) n); cbn [andb]; auto. elim H. auto.
Qed.

(** Cases: the matrix with the eigenvalues 1 and 2 in the first two rows of three, with the
    identity and with 4 I as mass matrix; the row below is left alone. *)
Definition aA : nat -> Qc := at2 [fr 41 25; fr 7 1; fr 9 1; fr (-12) 25; fr 34 25; fr 9 1].
Definition b4 : nat -> Qc := at2 [fr 4 1; fr 5 1; fr 0 1; fr 4 1].
Definition heev_case : Z * list Q :=
  let '(c, a, w) := Num_heev qlap 1000 (fun _ => true) false false (fun _ => fr 8 1) true 2 aA 3 wB in
  (c, map (fun k => this (a k)) (seq 0 6)).
Example C62_heev_case : heev_case = (0%Z, [3#5; 4#5; 9#1; (-4)#5; 3#5; 9#1])%Q.
Proof. vm_compute. reflexivity. Qed.
Definition hegv_case (xhegv : bool) : Z * list Q :=
  let '(c, a, w, _) := Num_hegv qlap 1000 (fun _ => true) false false xhegv (fun _ => fr 8 1) true 2 aA 3 (Some b4) 2 wA in
  (c, map (fun k => this (a k)) (seq 0 6) ++ [this (w 0); this (w 1)]).
Example C62_hegv_case : forall x, hegv_case x = (0%Z, [3#10; 2#5; 9#1; (-2)#5; 3#10; 9#1; 1#4; 1#2])%Q.
Proof. intros []; vm_compute; reflexivity. Qed.

(** The matrix of order two given by [2 1; . 2] and two right hand sides. *)
Definition m2 : nat -> Qc := at2 [fr 2 1; fr 0 1; fr 1 1; fr 2 1].
Definition rhs : nat -> Qc := at2 [fr 3 1; fr 3 1].
Definition twice (zgesv : bool) : list (Z * list Q) :=
  let '(c, f, p) := Num_hetrf Qs qlap 1000 (fun _ => true) true zgesv rhs true 2 m2 2 rhs in
  map (fun cx => (fst cx, [this (snd cx 0); this (snd cx 1)]))
    (solve_all qlap 1000 (fun _ => true) true zgesv rhs true 2 1 f 2 p [rhs; rhs] 2).
Example C62_solve_case : twice false = [(0%Z, [1#1; 1#1]); (0%Z, [1#1; 1#1])]%Q.
Proof. vm_compute. reflexivity. Qed.

(** With USE_ZGESV the second system is solved with another matrix, the factors of the
    first solution: LAPACK stores them in the place of the matrix. *)
Theorem C62_solve_again_refuted : exists (lap : lapack Qc) up n a lda ip f p b c1 f1 x1 c2 f2 x2,
  lapack_laws Qs lap /\
  (forall n nrhs a lda b ldb a' q x, gesv lap n nrhs a lda b ldb = (0%Z, a', q, x) -> 0 < n -> n <= lda ->
     forall i j, i < n -> j < n ->
     full a lda i j = total Qs n (fun k => (if k <? i then full a' lda i k else if k =? i then 1 else 0)
                                           * (if k <=? j then full a' lda k j else 0))%Qc) /\
  0 < n /\ n <= lda /\
  Num_hetrf Qs lap 1000 (fun _ => true) true true ip up n a lda ip = (0%Z, f, p) /\
  Num_hetrs lap 1000 (fun _ => true) true true ip up n 1 f lda p b n = (c1, f1, x1) /\
  Num_hetrs lap 1000 (fun _ => true) true true ip up n 1 f1 lda p b n = (c2, f2, x2) /\
  c1 = 0%Z /\ c2 = 0%Z /\ solved Qs n 1 (herm Qs up a lda) b x1 n /\ ~ solved Qs n 1 (herm Qs up a lda) b x2 n.
Proof.
  set (F := snd (fst (Num_hetrf Qs qlap 1000 (fun _ => true) true true rhs true 2 m2 2 rhs))).
  set (R1 := Num_hetrs qlap 1000 (fun _ => true) true true rhs true 2 1 F 2 rhs rhs 2).
  set (R2 := Num_hetrs qlap 1000 (fun _ => true) true true rhs true 2 1 (snd (fst R1)) 2 rhs rhs 2).
  assert (C1 : fst (fst R1) = 0%Z) by (vm_compute; reflexivity).
  assert (C2 : fst (fst R2) = 0%Z) by (vm_compute; reflexivity).
  exists qlap, true, 2, m2, 2, rhs, F, rhs, rhs, (fst (fst R1)), (snd (fst R1)), (snd R1), (fst (fst R2)), (snd (fst R2)), (snd R2).
  split; [apply C62_laws_hold|]. split.
  { intros n nrhs a lda b ldb a' p x E Hn Hl i j Hi Hj. cbn in E. destruct (can n _) eqn:C; [|discriminate E]. injection E as <- _ _.
    pose proof (can_2 _ _ C). subst n. unfold can in C. rewrite !andb_true_iff, !negb_true_iff in C. destruct C as [[_ C1'] _].
    apply qcne in C1'. unfold full in C1'. rewrite Nat.mul_0_r in C1'. cbn in C1'.
    unfold total. cbn [seq map fold_right]. unfold full, lu.
    assert (i = 0 \/ i = 1) as [->| ->] by lia; assert (j = 0 \/ j = 1) as [->| ->] by lia; cbn [Nat.ltb Nat.leb Nat.eqb];
      rewrite ?Nat.mul_0_r, ?Nat.mul_1_r, ?Nat.add_0_r, ?Nat.add_0_l, ?Nat.eqb_refl;
      repeat match goal with |- context [?u =? ?v] => let b := eval cbn in (u =? v) in
        first [rewrite (proj2 (Nat.eqb_neq u v)) by lia | idtac] end;
      unfold piv, full; rewrite ?Nat.mul_0_r, ?Nat.mul_1_r, ?Nat.add_0_r, ?Nat.add_0_l; cbn [kadd kmul k0 k1 Qs]; cbn [Nat.eqb];
      try (field; auto). }
  split; [lia|]. split; [lia|]. split; [reflexivity|].
  split; [exact (trip R1)|]. split; [exact (trip R2)|].
  split; [exact C1|]. split; [exact C2|]. split.
  - intros i j Hi Hj. assert (j = 0) by lia. subst. assert (i = 0 \/ i = 1) as [->| ->] by lia; apply Qc_is_canon; vm_compute; reflexivity.
  - intro S. specialize (S 1 0 ltac:(lia) ltac:(lia)). apply (f_equal this) in S. vm_compute in S. discriminate S.
Qed.

(** With integers up to 3, nine rows and a matrix of order one: only the first is solved. *)
Definition trsm_case : Z * list Q :=
  let '(c, x) := Num_trsm qlap 3 true true false 9 1 1%Qc (fun _ => fr 2 1) 1 (fun _ => fr 6 1) 10 in
  (c, map (fun k => this (x k)) (seq 0 10)).
Example C62_trsm_case : trsm_case = (0%Z, [3#1; 6#1; 6#1; 6#1; 6#1; 6#1; 6#1; 6#1; 6#1; 6#1])%Q.
Proof. vm_compute. reflexivity. Qed.
