(** C62: the small dense problems are handed to LAPACK as they are, its answers reach the
    caller's arrays, and its failures are reported. *)
From Coq Require Import List Arith Bool ZArith Lia QArith Qcanon.
From Verif Require Import Base ProjModel SpecProj MatAlg PropsProj LapackModel SpecLapack.
Import ListNotations.
Local Open Scope nat_scope.

Section Props.
Context {K : Type} (o : scal K) (lap : lapack K) (L : lapack_laws o lap).
Context (bmax : nat) (alloc : nat -> bool) (cplx wide use_xheev use_xhegv use_zgesv : bool) (junk : nat -> K).
Notation heev_ := (Num_heev lap bmax alloc cplx use_xheev junk).
Notation hegv_ := (Num_hegv lap bmax alloc cplx use_xheev use_xhegv junk).
Notation gesvd_ := (Num_gesvd lap bmax alloc cplx).
Notation hetrf_ := (Num_hetrf o lap bmax alloc wide use_zgesv junk).
Notation hetrs_ := (Num_hetrs lap bmax alloc wide use_zgesv junk).
Notation getrf_ := (Num_getrf lap alloc wide).
Notation getrs_ := (Num_getrs lap alloc wide junk).
Notation all_ := (solve_all lap bmax alloc wide use_zgesv junk).
Notation all_lu := (solve_all_lu lap alloc wide junk).

Lemma place ld i j : i < ld -> (ld * j + i) mod ld = i /\ (ld * j + i) / ld = j.
Proof.
  intro H. rewrite Nat.add_comm, Nat.mul_comm. split.
  - rewrite Nat.mod_add by lia. now apply Nat.mod_small.
  - rewrite Nat.div_add by lia. rewrite Nat.div_small by lia. lia.
Qed.
Lemma ltb_t a b : a < b -> (a <? b) = true. Proof. apply Nat.ltb_lt. Qed.
Lemma copy_in (z : nat -> K) m n ldz a lda i j : m <= lda -> i < m -> j < n ->
  copy_matrix z m n ldz a lda (lda * j + i) = z (ldz * j + i).
Proof.
  intros H Hi Hj. unfold copy_matrix. destruct (place lda i j) as [E1 E2]; [lia|]. rewrite E1, E2, !ltb_t by assumption. reflexivity.
Qed.
Lemma copy_only (z : nat -> K) m n ldz a lda : only m n lda a (copy_matrix z m n ldz a lda).
Proof.
  intros q H. unfold copy_matrix. destruct (Nat.ltb_spec (q mod lda) m), (Nat.ltb_spec (q / lda) n); cbn; auto. elim H. auto.
Qed.
Lemma only_trans m n ld (a b c : nat -> K) : only m n ld a b -> only m n ld b c -> only m n ld a c.
Proof. intros H G q Hq. rewrite G, H; auto. Qed.
Lemma only_refl m n ld (a : nat -> K) : only m n ld a a. Proof. intros q _. reflexivity. Qed.
Lemma tri_herm x n ldx up (y : nat -> K) i j : i < n -> j < n ->
  herm o up (copy_trimatrix x n ldx up y n) n i j = herm o up x ldx i j.
Proof.
  intros Hi Hj. unfold herm.
  assert (T : forall i j, i < n -> j < n -> (if up then i <=? j else j <=? i) = true ->
     copy_trimatrix x n ldx up y n (n * j + i) = x (ldx * j + i)).
  { clear i j Hi Hj. intros i j Hi Hj C. unfold copy_trimatrix. destruct (place n i j Hi) as [E1 E2]. cbv zeta.
    rewrite E1, E2, !ltb_t by assumption. cbn [andb]. destruct up; [|rewrite C; reflexivity].
    apply Nat.leb_le in C. rewrite ltb_t by lia. reflexivity. }
  destruct (if up then i <=? j else j <=? i) eqn:C; [rewrite T; auto|].
  rewrite T; auto. destruct up; apply Nat.leb_gt in C; apply Nat.leb_le; lia.
Qed.
Lemma copy_herm (x : nat -> K) n ldx up y i j : i < n -> j < n ->
  herm o up (copy_matrix x n n ldx y n) n i j = herm o up x ldx i j.
Proof. intros Hi Hj. unfold herm. rewrite !copy_in by lia. reflexivity. Qed.
Lemma total_ext n f g : (forall i, i < n -> f i = g i) -> total o n f = total o n g.
Proof.
  intro H. unfold total. f_equal. apply map_ext_in. intros i Hi. apply H. apply in_seq in Hi. lia.
Qed.
Lemma eigen_ext n H H' B B' w z z' ld ld' :
  (forall i j, i < n -> j < n -> H i j = H' i j) -> (forall i j, i < n -> j < n -> B i j = B' i j) ->
  (forall i j, i < n -> j < n -> z (ld * j + i) = z' (ld' * j + i)) ->
  eigen o n H B w z ld -> eigen o n H' B' w z' ld'.
Proof.
  intros EH EB EZ [P1 P2]. split; intros i j Hi Hj.
  - specialize (P1 i j Hi Hj). erewrite total_ext; [rewrite P1|].
    + f_equal. apply total_ext. intros k Hk. now rewrite EB, EZ.
    + intros k Hk. cbv beta. now rewrite EH, EZ.
  - rewrite <- (P2 i j Hi Hj). unfold inner. apply total_ext. intros k Hk. cbv beta. rewrite EZ by assumption. f_equal.
    apply total_ext. intros l Hl. now rewrite EB, EZ.
Qed.
Lemma reported_0 i : reported i = 0%Z <-> i = 0%Z.
Proof. unfold reported. destruct (Z.eqb_spec i 0); split; intro H; auto; try discriminate; contradiction. Qed.
Ltac fit H := match type of H with context [negb ?c] => destruct c eqn:?; cbn [negb] in H end.

(** The eigenproblem: on success the columns of a are its eigenvectors. *)
Theorem C62_heev up n a lda w c a' w' : n <= lda -> heev_ up n a lda w = (c, a', w') ->
  (c = 0%Z -> 0 < n -> eigen o n (herm o up a lda) (ident o) w' a' lda) /\ only n n lda a a'.
Proof.
  intros Hl E. unfold Num_heev in E. fit E; [|injection E as <- <- <-; split; [discriminate|apply only_refl]].
  destruct (Nat.eqb_spec n 0) as [->|Hn]; [injection E as <- <- <-; split; [lia|apply only_refl]|].
  destruct use_xheev; cbn [negb] in E.
  - fit E; [|injection E as <- <- <-; split; [discriminate|apply only_refl]].
    destruct (heev_query lap up n) as [i0 lw]. destruct (i0 =? 0)%Z; [|injection E as <- <- <-; split; [discriminate|apply only_refl]].
    destruct (malloc alloc lw); [|injection E as <- <- <-; split; [discriminate|apply only_refl]].
    destruct (heev lap up n a lda) as [[i a1] w1] eqn:R. injection E as <- <- <-. split.
    + rewrite reported_0. intros -> H. exact (l_heev _ _ L _ _ _ _ _ _ H Hl R).
    + eapply (l_heev_a _ _ L); eauto; lia.
  - fit E; [|injection E as <- <- <-; split; [discriminate|apply only_refl]].
    destruct (heevx_query lap up n) as [i0 lw]. cbv zeta in E.
    destruct (i0 =? 0)%Z; [|injection E as <- <- <-; split; [discriminate|apply copy_only]].
    match type of E with context [malloc alloc ?x] => destruct (malloc alloc x) end;
      [|injection E as <- <- <-; split; [discriminate|apply only_refl]].
    destruct (heevx lap up n a lda) as [[[i a1] w1] z] eqn:R. injection E as <- <- <-. split.
    + rewrite reported_0. intros -> H. pose proof (l_heevx _ _ L _ _ _ _ _ _ _ H Hl R) as P.
      refine (eigen_ext _ _ _ _ _ _ _ _ _ _ _ _ _ P); auto. intros. now rewrite copy_in.
    + apply only_trans with a1; [eapply (l_heevx_a _ _ L); eauto; lia|apply copy_only].
Qed.

(** What LAPACK said, in the variant that is compiled: the query and the computation. *)
Definition heev_infos (up : bool) (n : nat) (a : nat -> K) (lda : nat) : list Z :=
  if use_xheev then [fst (heev_query lap up n); fst (fst (heev lap up n a lda))]
  else [fst (heevx_query lap up n); fst (fst (fst (heevx lap up n a lda)))].

(** Success means that LAPACK reported success; and a success of LAPACK with sizes in
    range and memory available is a success. *)
Theorem C62_heev_reported up n a lda w : 0 < n ->
  (fst (fst (heev_ up n a lda w)) = 0%Z -> Forall (fun i => i = 0%Z) (heev_infos up n a lda)) /\
  (n <= bmax -> lda <= bmax -> (forall k, alloc k = true) -> Forall (fun i => i = 0%Z) (heev_infos up n a lda) ->
   fst (fst (heev_ up n a lda w)) = 0%Z).
Proof.
  intro Hn. assert (N : (n =? 0) = false) by (apply Nat.eqb_neq; lia).
  assert (ok : forall i, (i =? 0)%Z = true -> i = 0%Z) by (intros; now apply Z.eqb_eq).
  unfold heev_infos, Num_heev. split.
  - destruct (negb (fits bmax n && fits bmax lda)); [discriminate|]. rewrite N.
    destruct use_xheev; cbn [negb].
    + destruct (negb _); [discriminate|]. destruct (heev_query lap up n) as [i0 lw]. destruct (i0 =? 0)%Z eqn:I; [|discriminate].
      destruct (malloc alloc lw); [|discriminate]. destruct (heev lap up n a lda) as [[i a1] w1]. cbn [fst].
      rewrite reported_0. intros ->. repeat constructor. now apply ok.
    + destruct (negb _); [discriminate|]. destruct (heevx_query lap up n) as [i0 lw]. cbv zeta. destruct (i0 =? 0)%Z eqn:I; [|discriminate].
      destruct (malloc alloc _); [|discriminate]. destruct (heevx lap up n a lda) as [[[i a1] w1] z]. cbn [fst].
      rewrite reported_0. intros ->. repeat constructor. now apply ok.
  - intros B1 B2 A F. unfold fits. rewrite (proj2 (Nat.leb_le _ _) B1), (proj2 (Nat.leb_le _ _) B2). cbn [andb negb]. rewrite N.
    assert (M : forall k, malloc alloc k = true) by (intro k; unfold malloc; rewrite A; apply orb_true_r).
    destruct use_xheev; cbn [negb]; rewrite ?M.
    + replace (negb (if cplx then true else true)) with false by (destruct cplx; reflexivity).
      inversion F as [|? ? F0 F1]; subst. inversion F1 as [|? ? F2 _]; subst.
      destruct (heev_query lap up n) as [i0 lw]. cbn [fst] in F0. subst i0. cbn [Z.eqb]. rewrite M.
      destruct (heev lap up n a lda) as [[i a1] w1]. cbn [fst] in *. now rewrite reported_0.
    + replace (negb _) with false by (destruct cplx; reflexivity).
      inversion F as [|? ? F0 F1]; subst. inversion F1 as [|? ? F2 _]; subst.
      destruct (heevx_query lap up n) as [i0 lw]. cbn [fst] in F0. subst i0. cbv zeta. cbn [Z.eqb]. rewrite M.
      destruct (heevx lap up n a lda) as [[[i a1] w1] z]. cbn [fst] in *. now rewrite reported_0.
Qed.

(** The generalized eigenproblem, with the mass matrix kept; with USE_XHEGV only as far as
    LAPACK did not fail. *)
Definition hegv_infos (up : bool) (n : nat) (a : nat -> K) (lda : nat) (b0 : nat -> K) (ldb0 : nat) : list Z :=
  if use_xhegv then
    let b := copy_matrix b0 n n ldb0 junk n in
    [fst (hegv_query lap up n); fst (fst (fst (hegv lap up n a lda b n)))]
  else
    let b := copy_trimatrix b0 n ldb0 up junk n in
    [fst (hegvx_query lap up n); fst (fst (fst (fst (hegvx lap up n a lda b n))))].
Definition no_failure (infos : list Z) : Prop := Forall (fun i => i = 0%Z) infos.

Theorem C62_hegv up n a lda b0 ldb0 w c a' w' b' : n <= lda ->
  hegv_ up n a lda (Some b0) ldb0 w = (c, a', w', b') ->
  (c = 0%Z -> 0 < n -> use_xhegv = false \/ no_failure (hegv_infos up n a lda b0 ldb0) ->
     eigen o n (herm o up a lda) (herm o up b0 ldb0) w' a' lda /\ no_failure (hegv_infos up n a lda b0 ldb0)) /\
  only n n lda a a' /\ b' = Some b0.
Proof.
  intros Hl E. unfold Num_hegv in E.
  fit E; [|injection E as <- <- <- <-; split; [discriminate|split; [apply only_refl|reflexivity]]].
  destruct (Nat.eqb_spec n 0) as [->|Hn]; [injection E as <- <- <- <-; split; [lia|split; [apply only_refl|reflexivity]]|].
  unfold hegv_infos, no_failure. destruct use_xhegv; cbn [negb] in E.
  - fit E; [|injection E as <- <- <- <-; split; [discriminate|split; [apply only_refl|reflexivity]]]. cbv zeta in *.
    destruct (hegv_query lap up n) as [i0 lw]. cbn [fst].
    destruct (Z.eqb_spec i0 0) as [->|Hi].
    2: { injection E as <- <- <- <-. split; [|split; [apply only_refl|reflexivity]]. intros _ _ [F|F]; [discriminate F|].
         inversion F; subst. contradiction. }
    destruct (malloc alloc lw); [|injection E as <- <- <- <-; split; [discriminate|split; [apply only_refl|reflexivity]]].
    destruct (hegv lap up n a lda _ n) as [[[i a1] b1] w1] eqn:R. injection E as <- <- <- <-. cbn [fst]. split.
    + intros _ H [F|F]; [discriminate F|]. split; [|exact F]. inversion F as [|? ? _ F1]; subst. inversion F1; subst.
      pose proof (l_hegv _ _ L _ _ _ _ _ _ _ _ _ H Hl (Nat.le_refl n) R) as P.
      refine (eigen_ext _ _ _ _ _ _ _ _ _ _ _ _ _ P); auto. intros. now apply copy_herm.
    + split; [|reflexivity]. refine (l_hegv_a _ _ L _ _ _ _ _ _ _ _ _ _ _ Hl (Nat.le_refl n) R); lia.
  - fit E; [|injection E as <- <- <- <-; split; [discriminate|split; [apply only_refl|reflexivity]]]. cbv zeta in *.
    destruct (hegvx_query lap up n) as [i0 lw]. cbn [fst].
    destruct (Z.eqb_spec i0 0) as [->|Hi]; [|injection E as <- <- <- <-; split; [discriminate|split; [apply copy_only|reflexivity]]].
    destruct (malloc alloc lw); [|injection E as <- <- <- <-; split; [discriminate|split; [apply only_refl|reflexivity]]].
    destruct (hegvx lap up n a lda _ n) as [[[[i a1] b1] w1] z] eqn:R. injection E as <- <- <- <-. cbn [fst]. split.
    + rewrite reported_0. intros -> H _. split; [|repeat constructor].
      pose proof (l_hegvx _ _ L _ _ _ _ _ _ _ _ _ _ H Hl (Nat.le_refl n) R) as P.
      refine (eigen_ext _ _ _ _ _ _ _ _ _ _ _ _ _ P); auto; intros; [now apply tri_herm|now rewrite copy_in].
    + split; [|reflexivity]. apply only_trans with a1; [refine (l_hegvx_a _ _ L _ _ _ _ _ _ _ _ _ _ _ _ Hl (Nat.le_refl n) R); lia|apply copy_only].
Qed.
(** Without a mass matrix it is the standard problem. *)
Theorem C62_hegv_standard up n a lda ldb0 w c a' w' b' : n <= lda ->
  hegv_ up n a lda None ldb0 w = (c, a', w', b') ->
  (c = 0%Z -> 0 < n -> eigen o n (herm o up a lda) (ident o) w' a' lda) /\ only n n lda a a'.
Proof. intros Hl E. unfold Num_hegv in E. injection E as E _. now apply C62_heev with (w := w) (c := c). Qed.

(** The singular value decomposition. *)
Theorem C62_gesvd m n a lda s u ldu c a' s' u' : m <= lda -> m <= ldu ->
  gesvd_ m n a lda s u ldu = (c, a', s', u') ->
  (c = 0%Z -> 0 < m -> 0 < n -> svd o m n a lda s' u' ldu a' /\ fst (gesvd_query lap m n) = 0%Z
     /\ fst (fst (fst (gesvd lap m n a lda ldu))) = 0%Z) /\
  only m n lda a a' /\ only m (Nat.min m n) ldu u u'.
Proof.
  intros Hl Hu E. unfold Num_gesvd in E.
  assert (T : forall d : Z, d <> 0%Z -> (d, a, s, u) = (c, a', s', u') ->
    (c = 0%Z -> 0 < m -> 0 < n -> svd o m n a lda s' u' ldu a' /\ fst (gesvd_query lap m n) = 0%Z
       /\ fst (fst (fst (gesvd lap m n a lda ldu))) = 0%Z) /\ only m n lda a a' /\ only m (Nat.min m n) ldu u u').
  { intros d D G. injection G as <- <- <- <-. split; [contradiction|]. split; apply only_refl. }
  fit E; [|exact (T UNEXPECTED ltac:(discriminate) E)].
  destruct ((m =? 0) || (n =? 0)) eqn:Z.
  { injection E as <- <- <- <-. apply orb_true_iff in Z. rewrite !Nat.eqb_eq in Z. split; [lia|split; apply only_refl]. }
  apply orb_false_iff in Z. rewrite !Nat.eqb_neq in Z.
  destruct (gesvd_query lap m n) as [i0 lw]. cbn [fst].
  destruct (Z.eqb_spec i0 0) as [->|Hi]; [|exact (T LAPACK ltac:(discriminate) E)].
  destruct (malloc alloc lw && _); [|exact (T MALLOC ltac:(discriminate) E)].
  destruct (gesvd lap m n a lda ldu) as [[[i a1] s1] u1] eqn:R. cbn [fst] in *. injection E as <- <- <- <-. split; [|split].
  - rewrite reported_0. intros -> Hm Hn. destruct (l_gesvd _ _ L _ _ _ _ _ _ _ _ Hm Hn Hl Hu R) as [P1 P2].
    split; [|split; reflexivity]. split; intros i j Hi Hj.
    + rewrite <- (P1 i j Hi Hj). apply total_ext. intros k Hk. now rewrite copy_in by (auto; lia).
    + rewrite <- (P2 i j Hi Hj). unfold inner. apply total_ext. intros k Hk. now rewrite !copy_in by (auto; lia).
  - eapply (l_gesvd_a _ _ L); eauto; lia.
  - apply copy_only.
Qed.

(** Symmetric systems: after a factorization that succeeded, every system solved with it
    afterwards is solved with the matrix factorized. *)
Theorem C62_solve up n nrhs a lda ip f p : 0 < n -> n <= lda -> use_zgesv = false ->
  hetrf_ up n a lda ip = (0%Z, f, p) ->
  forall bs ldb k c x b, n <= ldb -> nth_error bs k = Some b ->
  nth_error (all_ up n nrhs f lda p bs ldb) k = Some (c, x) ->
  (c = 0%Z -> solved o n nrhs (herm o up a lda) b x ldb) /\ only n nrhs ldb b x.
Proof.
  intros Hn Hl Z. rewrite Z. intro E. unfold Num_hetrf in E.
  fit E; [|discriminate E]. destruct (Nat.eqb_spec n 0); [lia|]. fit E; [|discriminate E].
  destruct (hetrf_query lap up n) as [i0 lw]. destruct (i0 =? 0)%Z; [|discriminate E].
  destruct (malloc alloc lw); [|discriminate E].
  destruct (hetrf lap up n a lda) as [[i f1] p1] eqn:R. injection E as E <- <-. rewrite reported_0 in E. subst i.
  assert (P : forall i, i < n -> (if wide then fun i => if i <? n then pivots wide n p1 ip i else junk i else pivots wide n p1 ip) i = p1 i).
  { intros i Hi. unfold pivots. destruct wide; rewrite ?ltb_t; auto. }
  induction bs as [|b0 bs IH]; intros ldb k c x b Hb Eb Ek; [destruct k; discriminate Eb|].
  cbn [solve_all] in Ek. unfold Num_hetrs in Ek. cbn [negb] in Ek.
  assert (Q : forall d, d <> 0%Z -> nth_error ((d, b0) :: solve_all lap bmax alloc wide false junk up n nrhs f1 lda (pivots wide n p1 ip) bs ldb) k = Some (c, x) ->
     (c = 0%Z -> solved o n nrhs (herm o up a lda) b x ldb) /\ only n nrhs ldb b x).
  { intros d D G. destruct k as [|k]; cbn in Eb, G; [injection G as <- <-; injection Eb as ->; split; [contradiction|apply only_refl]|].
    exact (IH ldb k c x b Hb Eb G). }
  fit Ek; [|exact (Q UNEXPECTED ltac:(discriminate) Ek)].
  destruct ((n =? 0) || (nrhs =? 0)) eqn:O.
  { destruct k as [|k]; cbn in Eb, Ek; [|exact (IH ldb k c x b Hb Eb Ek)]. injection Ek as <- <-. injection Eb as ->.
    apply orb_true_iff in O. rewrite !Nat.eqb_eq in O. split; [intros _ i j Hi Hj; lia|apply only_refl]. }
  fit Ek; [|exact (Q MALLOC ltac:(discriminate) Ek)]. cbv zeta in Ek.
  destruct (hetrs lap up n nrhs f1 lda _ b0 ldb) as [i x1] eqn:S.
  destruct k as [|k]; cbn in Eb, Ek; [|exact (IH ldb k c x b Hb Eb Ek)]. injection Ek as <- <-. injection Eb as ->. split.
  - rewrite reported_0. intros ->. exact (l_hetrs _ _ L _ _ _ _ _ _ _ _ _ _ _ Hn Hl Hb R P S).
  - exact (l_hetrs_b _ _ L _ _ _ _ _ _ _ _ _ _ Hn Hl Hb S).
Qed.

(** With USE_ZGESV the first of them. *)
Theorem C62_solve_once up n nrhs a lda ip f p b ldb c f' x : 0 < n -> n <= lda -> n <= ldb ->
  use_zgesv = true ->
  hetrf_ up n a lda ip = (0%Z, f, p) -> hetrs_ up n nrhs f lda p b ldb = (c, f', x) ->
  (c = 0%Z -> solved o n nrhs (herm o up a lda) b x ldb) /\ only n nrhs ldb b x.
Proof.
  intros Hn Hl Hb Z. rewrite Z. intros E S. unfold Num_hetrf in E. injection E as <- <-.
  unfold Num_hetrs in S. cbn [negb] in S.
  fit S; [|injection S as <- <- <-; split; [discriminate|apply only_refl]].
  destruct ((n =? 0) || (nrhs =? 0)) eqn:O.
  { injection S as <- <- <-. apply orb_true_iff in O. rewrite !Nat.eqb_eq in O. split; [intros _ i j Hi Hj; lia|apply only_refl]. }
  fit S; [|injection S as <- <- <-; split; [discriminate|apply only_refl]].
  match type of S with context [gesv lap n nrhs ?g lda b ldb] => set (F := g) in S end.
  destruct (gesv lap n nrhs F lda b ldb) as [[[i f1] q] x1] eqn:R. injection S as <- <- <-. split.
  - rewrite reported_0. intros ->. pose proof (l_gesv _ _ L _ _ _ _ _ _ _ _ _ Hn Hl Hb R) as P.
    intros i j Hi Hj. rewrite <- (P i j Hi Hj). apply total_ext. intros k Hk. f_equal.
    unfold full, F, herm. destruct (place lda i k) as [E1 E2]; [lia|]. cbv zeta. rewrite E1, E2, !ltb_t by lia. cbn [andb].
    destruct up.
    + destruct (Nat.leb_spec i k), (Nat.ltb_spec k i); auto; lia.
    + destruct (Nat.leb_spec k i), (Nat.ltb_spec i k); auto; lia.
  - exact (l_gesv_b _ _ L _ _ _ _ _ _ _ _ _ _ Hn Hl Hb R).
Qed.

(** General systems: every one solved after a factorization. *)
Theorem C62_solve_lu conjt n nrhs a lda ip f p : 0 < n -> n <= lda ->
  getrf_ n a lda ip = (0%Z, f, p) ->
  forall bs ldb k c x b, n <= ldb -> nth_error bs k = Some b ->
  nth_error (all_lu conjt n nrhs f lda p bs ldb) k = Some (c, x) -> c = 0%Z ->
  solved o n nrhs (if conjt then adjoint o (full a lda) else full a lda) b x ldb.
Proof.
  intros Hn Hl E. unfold Num_getrf in E. destruct (Nat.eqb_spec n 0); [lia|]. fit E; [|discriminate E].
  destruct (getrf lap n n a lda) as [[i f1] p1] eqn:R. injection E as E <- <-. rewrite reported_0 in E. subst i.
  assert (P : forall i, i < n -> (if wide then fun i => if i <? n then pivots wide n p1 ip i else junk i else pivots wide n p1 ip) i = p1 i).
  { intros i Hi. unfold pivots. destruct wide; rewrite ?ltb_t; auto. }
  induction bs as [|b0 bs IH]; intros ldb k c x b Hb Eb Ek C; [destruct k; discriminate Eb|].
  cbn [solve_all_lu] in Ek. unfold Num_getrs in Ek.
  destruct ((n =? 0) || (nrhs =? 0)) eqn:O.
  { destruct k as [|k]; cbn in Eb, Ek; [|exact (IH ldb k c x b Hb Eb Ek C)]. injection Ek as <- <-. injection Eb as ->.
    apply orb_true_iff in O. rewrite !Nat.eqb_eq in O. intros i j Hi Hj; lia. }
  fit Ek.
  2: { destruct k as [|k]; cbn in Eb, Ek; [|exact (IH ldb k c x b Hb Eb Ek C)]. injection Ek as <- <-. discriminate C. }
  cbv zeta in Ek. destruct (getrs lap conjt n nrhs f1 lda _ b0 ldb) as [i x1] eqn:S.
  destruct k as [|k]; cbn in Eb, Ek; [|exact (IH ldb k c x b Hb Eb Ek C)]. injection Ek as <- <-. injection Eb as ->.
  rewrite reported_0 in C. subst i. exact (l_getrs _ _ L _ _ _ _ _ _ _ _ _ _ _ Hn Hl Hb R P S).
Qed.

(** The Cholesky factorization: a caller that does not ask for info gets the error, one
    that asks is given it. *)
Theorem C62_potrf_reported asks up n a lda c i a' : 0 < n ->
  Num_potrf lap bmax asks up n a lda = (c, i, a') -> c = 0%Z ->
  i = fst (potrf lap up n a lda) /\ (asks = false -> i = 0%Z).
Proof.
  intros Hn E C. unfold Num_potrf in E. fit E; [|injection E as <- <- <-; discriminate C].
  destruct (Nat.eqb_spec n 0); [lia|]. destruct (potrf lap up n a lda) as [i1 a1]. injection E as <- <- <-.
  split; [reflexivity|]. intros ->. cbn [negb] in C. now apply reported_0.
Qed.

(** No size: nothing happens. *)
Theorem C62_empty up a lda w b ldb s u ldu ip f : lda <= bmax -> ldb <= bmax -> ldu <= bmax ->
  heev_ up 0 a lda w = (0%Z, a, w) /\ hegv_ up 0 a lda (Some b) ldb w = (0%Z, a, w, Some b) /\
  gesvd_ 0 0 a lda s u ldu = (0%Z, a, s, u) /\ getrf_ 0 a lda ip = (0%Z, a, ip) /\
  hetrs_ up 0 0 f lda ip b ldb = (0%Z, f, b) /\ fst (fst (hetrf_ up 0 a lda ip)) = 0%Z /\
  (forall q, snd (fst (hetrf_ up 0 a lda ip)) q = a q).
Proof.
  intros H1 H2 H3. apply Nat.leb_le in H1, H2, H3.
  unfold Num_heev, Num_hegv, Num_gesvd, Num_getrf, Num_hetrs, Num_hetrf, fits. rewrite H1, H2, H3. cbn [Nat.leb andb negb Nat.eqb orb].
  repeat split; try (destruct use_zgesv; reflexivity).
Qed.

(** The triangular solve from the right (ortho.c 1036 with the rows of the process): with
    sizes in the range of the integers of BLAS every row is solved. *)
Lemma narrow_id n : n <= bmax -> narrow bmax n = Z.of_nat n.
Proof.
  intro H. unfold narrow. rewrite Z.mod_small by lia. destruct (Z.leb_spec (Z.of_nat n) (Z.of_nat bmax)); lia.
Qed.
Theorem C62_trsm (T : trsm_law o lap) m n alpha a lda b ldb c x :
  m <= bmax -> n <= bmax -> lda <= bmax -> ldb <= bmax -> n <= lda -> m <= ldb ->
  (forall i, i < n -> a (lda * i + i) <> k0 o) ->
  Num_trsm lap bmax true true false m n alpha a lda b ldb = (c, x) ->
  c = 0%Z /\ rows_solved o m n (upper o a lda) alpha b x ldb /\ only m n ldb b x.
Proof.
  intros B1 B2 B3 B4 H1 H2 D E. unfold Num_trsm in E. destruct ((m =? 0) || (n =? 0)) eqn:O.
  { injection E as <- <-. apply orb_true_iff in O. rewrite !Nat.eqb_eq in O.
    split; [reflexivity|split; [intros r j Hr Hj; lia|apply only_refl]]. }
  apply orb_false_iff in O. rewrite !Nat.eqb_neq in O.
  injection E as <- <-. rewrite !narrow_id by assumption. split; [reflexivity|]. apply T; auto; lia.
Qed.
(** With more rows than that success is returned although the last rows are left as they
    were: of 2 (bmax + 1) + m rows the first m are solved. *)
Theorem C62_trsm_rows_refuted (T : trsm_law o lap) m l alpha a lda b :
  m <= l -> 0 < l -> l <= bmax -> 0 < lda -> lda <= bmax -> 1 <= bmax -> a 0 <> k0 o ->
  let rows := 2 * (bmax + 1) + m in let ldb := 2 * (bmax + 1) + l in
  (forall r, m <= r -> r < rows -> kmul o alpha (b r) <> kadd o (kmul o (b r) (a 0)) (k0 o)) ->
  exists x, Num_trsm lap bmax true true false rows 1 alpha a lda b ldb = (0%Z, x) /\
    (forall r, m <= r -> r < l -> x r = b r) /\ (forall r, l <= r -> x r = b r) /\
    ~ rows_solved o rows 1 (upper o a lda) alpha b x ldb.
Proof.
  intros H1 H2 H3 H4 H5 H6 D rows ldb B. unfold Num_trsm. unfold rows at 1.
  replace ((2 * (bmax + 1) + m =? 0) || (1 =? 0)) with false by (symmetry; apply orb_false_iff; rewrite !Nat.eqb_neq; lia).
  assert (N : forall k, k <= bmax -> narrow bmax (2 * (bmax + 1) + k) = Z.of_nat k).
  { intros k Hk. unfold narrow.
    replace (Z.of_nat (2 * (bmax + 1) + k)) with (Z.of_nat k + 1 * (2 * (Z.of_nat bmax + 1)))%Z by lia.
    rewrite Z.mod_add, Z.mod_small by lia. destruct (Z.leb_spec (Z.of_nat k) (Z.of_nat bmax)); lia. }
  unfold rows at 1, ldb at 1. rewrite (narrow_id 1), (narrow_id lda), !N by lia.
  destruct (T m 1 alpha a lda b l) as [_ O]; try lia.
  { intros i Hi. replace i with 0 by lia. now rewrite Nat.mul_0_r. }
  eexists. split; [reflexivity|].
  assert (X1 : forall r, m <= r -> r < l -> trsm lap true true false (Z.of_nat m) (Z.of_nat 1) alpha a (Z.of_nat lda) b (Z.of_nat l) r = b r).
  { intros r Hr Hl. apply O. rewrite Nat.mod_small by lia. lia. }
  assert (X2 : forall r, l <= r -> trsm lap true true false (Z.of_nat m) (Z.of_nat 1) alpha a (Z.of_nat lda) b (Z.of_nat l) r = b r).
  { intros r Hr. apply O. intros [_ G]. assert (1 <= r / l) by (apply Nat.div_le_lower_bound; lia). lia. }
  split; [exact X1|]. split; [exact X2|].
  intro S. specialize (S (rows - 1) 0 ltac:(unfold rows; lia) ltac:(lia)). unfold total in S. cbn [seq map fold_right] in S.
  rewrite !Nat.mul_0_r, !Nat.add_0_l in S. rewrite X2 in S by (unfold rows; lia).
  unfold upper in S. cbn [Nat.leb] in S. rewrite Nat.mul_0_r in S.
  apply (B (rows - 1)); [unfold rows; lia|unfold rows; lia|]. symmetry. exact S.
Qed.

(** With USE_XHEGV a mass matrix LAPACK cannot work with goes unnoticed: for B = 0 there is
    no basis that is orthonormal in its product, whatever LAPACK does the code is zero. *)
Theorem C62_hegv_unreported_refuted (F : laws o) : k1 o <> k0 o -> use_xhegv = true -> (forall k, alloc k = true) ->
  forall up n a lda b0 ldb0 w, 0 < n -> n <= bmax -> lda <= bmax ->
  (forall i j, i < n -> j < n -> herm o up b0 ldb0 i j = k0 o) ->
  exists a' w', hegv_ up n a lda (Some b0) ldb0 w = (0%Z, a', w', Some b0) /\
    ~ eigen o n (herm o up a lda) (herm o up b0 ldb0) w' a' lda.
Proof.
  intros Ne X A up n a lda b0 ldb0 w Hn B1 B2 Z. rewrite X.
  assert (No : forall w' a', ~ eigen o n (herm o up a lda) (herm o up b0 ldb0) w' a' lda).
  { intros w' a' [_ P]. specialize (P 0 0 Hn Hn). unfold ident in P. cbn [Nat.eqb] in P. apply Ne. rewrite <- P.
    destruct (l_field _ F) as [R _ _ _]. destruct R as [R0 RC RA _ RM _ RD _ RO].
    assert (M0 : forall x, kmul o x (k0 o) = k0 o) by (intro x; symmetry; exact (MatAlg.sum_mull o F 0 (fun _ => k0 o) x)).
    assert (T0 : forall m f, (forall i, i < m -> f i = k0 o) -> total o m f = k0 o).
    { intros m f H. rewrite (PropsProj.total_sum o F). induction m as [|m IH]; [reflexivity|]. cbn. rewrite IH, H, R0; auto. }
    unfold inner. apply T0. intros i Hi. rewrite (T0 n); [apply M0|]. intros k Hk. rewrite Z by assumption.
    rewrite RM. apply M0. }
  unfold Num_hegv, fits. rewrite (proj2 (Nat.leb_le _ _) B1), (proj2 (Nat.leb_le _ _) B2). cbn [andb negb].
  destruct (Nat.eqb_spec n 0); [lia|].
  assert (M : forall k, malloc alloc k = true) by (intro k; unfold malloc; rewrite A; apply orb_true_r). rewrite !M.
  replace (negb (true && (if cplx then true else true))) with false by (destruct cplx; reflexivity). cbv zeta.
  destruct (hegv_query lap up n) as [i0 lw]. destruct (i0 =? 0)%Z; [|eauto]. rewrite M.
  destruct (hegv lap up n a lda _ n) as [[[i a1] b1] w1]. eauto.
Qed.
End Props.
