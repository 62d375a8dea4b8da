(** C56: the product of a piece is the one of the library, the exception of a last
    row, and cases. *)
From Coq Require Import List Arith Bool Lia Field Setoid ZArith QArith Qcanon.
From Verif Require Import Base ProjModel SpecProj MatAlg BlasModel SpecBlas PropsBlas PropsBlas2 VwxrModel SpecVwxr PropsVwxr PropsVwxr2 PropsBlas4 PropsProj PropsQmr4.
Import ListNotations.
Local Open Scope nat_scope.
Notation fst := Datatypes.fst. Notation snd := Datatypes.snd.

(** What the update calls a product is what Num_gemm_dhd of C55 leaves in its buffer, for
    vectors and coefficients stored with any leading dimensions. *)
Section Kernel.
Context {K : Type} (o : scal K) (L : laws o).
Add Field Kf : (l_field o L).
Theorem C56_kernel : forall cplx bmax kcode junk,
  2 <= bmax -> real_build o cplx ->
  forall (mem : @memory K) A (J : @job K) i m lo hi a lda b ldb c ldc,
  1 <= m < bmax -> lo < hi -> hi - lo < bmax -> j_nV J < bmax ->
  m <= lda <= bmax -> Nat.max 1 (j_nV J) <= ldb <= bmax -> m <= ldc <= bmax ->
  (forall l r, l < j_nV J -> r < m -> stored a lda r l = mem (fst A) (snd A + l) (i + r)) ->
  (forall l j, l < j_nV J -> j < hi - lo -> stored b ldb l j = j_h J l (lo + j)) ->
  exists c', gemm_dhd o cplx bmax kcode true (fun z => z) (fun z => z) junk trN trN m (hi - lo) (j_nV J)
               (k1 o) a lda b ldb (k0 o) c ldc = Done c' /\
    forall r j, r < m -> j < hi - lo -> stored c' ldc r j = product o cplx mem A J i m lo hi j r.
Proof.
  intros cplx bmax kcode junk Hb Hreal mem A J i m lo hi a lda b ldb c ldc Hm Hlt Hn Hk Hla Hlb Hlc Ha Hh.
  pose proof (l_field o L) as Fl.
  destruct (cplx && (m =? 1) && (hi - lo =? 1)) eqn:E.
  - apply andb_true_iff in E. destruct E as [E E2]. apply andb_true_iff in E. destruct E as [E0 E1].
    apply Nat.eqb_eq in E1, E2. subst cplx m.
    assert (Hz : iszero o (k1 o) = false).
    { unfold iszero. destruct (kzero o (k1 o)) eqn:Ez; auto. apply (l_zero o L) in Ez. destruct (F_1_neq_0 Fl). exact Ez. }
    assert (Hz0 : iszero o (k0 o) = true) by (apply (l_zero o L); reflexivity).
    assert (Ho : isone o (k0 o) = false).
    { destruct (isone o (k0 o)) eqn:Eo; auto. apply (isone_true o L) in Eo. destruct (F_1_neq_0 Fl). now rewrite Eo. }
    unfold gemm_dhd. rewrite E2, Ho, andb_false_r. cbn [Nat.eqb orb isN]. unfold astype, gemm. 
    rewrite !in_int by lia. cbn [negb andb orb Nat.eqb isC isN].
    unfold product. rewrite E2. cbn [Nat.eqb andb].
    destruct (Nat.eqb_spec (j_nV J) 0) as [Ek|Ek].
    + cbn [orb]. rewrite Hz0. cbn [rbind]. eexists. split; [reflexivity|].
      intros r j Hr Hj. rewrite Ek. cbn [sum]. assert (r = 0) by lia. assert (j = 0) by lia. subst.
      unfold stored, back, zero_matrix. rewrite blk_in by lia. reflexivity.
    + rewrite Hz. cbn [orb]. unfold gemv. rewrite !in_int by lia. cbn [negb andb isN Nat.eqb].
      rewrite (proj2 (Nat.eqb_neq (j_nV J) 0)) by lia. rewrite Hz, Hz0. cbn [orb rbind].
      eexists. split; [reflexivity|]. intros r j Hr Hj. assert (r = 0) by lia. assert (j = 0) by lia. subst.
      unfold stored at 1, back. cbn [Nat.mul Nat.add Nat.eqb].
      unfold num_dot. match goal with |- kadd _ _ (kmul _ ?d _) = ?s => assert (Es : d = s) end.
      { apply sum_ext. intros l Hl. cbv zeta. rewrite <- (Ha l 0), <- (Hh l 0) by lia. unfold stored.
        rewrite Nat.mul_1_r, !Nat.add_0_r. reflexivity. }
      rewrite Es. field.
  - destruct (C55_gemm_dhd o L cplx bmax kcode Hb Hreal true (fun z => z) (fun z => z) junk ltac:(repeat split; auto)
        trN trN m (hi - lo) (j_nV J) (k1 o) a lda b ldb (k0 o) c ldc) as (c' & E1 & H1 & H2); cbn [isN]; try lia.
    { intros -> -> E2. rewrite E2 in E. discriminate. }
    exists c'. split; auto. intros r j Hr Hj. unfold stored at 1. rewrite H1 by auto.
    unfold product. rewrite E. unfold mul, op, converted.
    rewrite (sum_ext o (j_nV J) _ (fun l => kmul o (mem (fst A) (snd A + l) (i + r)) (j_h J l (lo + j)))).
    + field.
    + intros l Hl. rewrite (Ha l r), (Hh l j) by auto. reflexivity.
Qed.
End Kernel.

(** A restart that keeps at least two vectors is exact for every number of rows, in
    real and complex arithmetic. *)
Lemma span_wide imax l b e : In (true, b, e) l -> b + 2 <= e -> snd (span imax l) - fst (span imax l) <> 1.
Proof. intros H Hle. destruct (span_in imax l b e H). lia. Qed.
Lemma span_nil imax : snd (span imax []) - fst (span imax []) <> 1.
Proof. unfold span. cbn. lia. Qed.
Theorem C56_restart : forall {K} (o : scal K), laws o -> forall cplx pbs imax sq,
  2 <= pbs -> forall hasB hasBe G H basisSize rs sb left packed ev h vals np mV mem,
  2 <= rs -> 1 <= np ->
  let J := @restart_job K hasB hasBe G H basisSize rs sb left packed ev h vals in
  let V p := rotated o (mem p) (0, 0) basisSize h in
  let W p := rotated o (mem p) (1, 0) basisSize h in
  let BV p := rotated o (mem p) (if hasB then 2 else 0, 0) basisSize h in
  let R p j r := ksub o (W p j r) (kmul o (vals j) (BV p j r)) in
  let ip x y := inner o np mV x y in
  exists res, update_VWXR o cplx pbs imax sq np J mV mem = Some res /\
    (forall p, p < np ->
       (forall j r, j < rs -> r < mV p -> r_mem res p 0 j r = V p j r) /\
       (forall j r, j < rs -> r < mV p -> r_mem res p 1 j r = W p j r) /\
       (forall j r, hasB = true -> j < rs -> r < mV p -> r_mem res p 2 j r = BV p j r) /\
       (forall j r, j < sb -> r < mV p -> r_mem res p 0 (rs + j) r = V p j r) /\
       (forall j r, j < sb -> r < mV p -> r_mem res p 1 (rs + j) r = R p j r) /\
       (forall j r, hasB = true -> j < sb -> r < mV p -> r_mem res p 2 (rs + j) r = BV p j r) /\
       (forall j r, j < packed -> r < mV p -> r_mem res p 3 (ev + j) r = V p (left + j) r) /\
       (forall j r, hasB = true -> hasBe = true -> j < packed -> r < mV p -> r_mem res p 4 (ev + j) r = BV p (left + j) r) /\
       (forall c r, c < ev \/ ev + packed <= c -> r_mem res p 3 c r = mem p 3 c r /\ r_mem res p 4 c r = mem p 4 c r)) /\
    (forall j, j < sb -> r_R res j = sq (ip (fun p => R p j) (fun p => R p j))) /\
    (forall j, left + j < rs -> r_r res j = sq (ip (fun p => R p (left + j)) (fun p => R p (left + j)))) /\
    (forall n a b, H = Some n -> a < n -> b < n -> r_H res a b = ip (fun p => V p a) (fun p => W p b)) /\
    (forall n a b, G = Some n -> a < n -> b < n -> r_G res a b = ip (fun p => V p a) (fun p => BV p b)).
Proof.
  intros K o L cplx pbs imax sq Hp hasB hasBe G H basisSize rs sb left packed ev h vals np mV mem Hrs Hn J V W BV R ip.
  assert (Lay : layout J) by apply (C56_callers o hasB hasBe G H basisSize rs sb h vals).
  assert (Hw : forall p, p < np -> regular_rows pbs imax J (mV p)).
  { intros p _. right. intros s [<-|[<-|[<-|[]]]].
    - apply span_wide with 0 rs; [|lia]. left. unfold of_out, asked, J, restart_job. cbn [j_x0 given o_ptr o_b o_e andb].
      now rewrite (proj2 (Nat.ltb_lt 0 rs)) by lia.
    - apply span_wide with 0 rs; [|lia]. left. unfold of_out, asked, J, restart_job. cbn [j_wo j_bx0 if_B given o_ptr o_b o_e andb].
      now rewrite (proj2 (Nat.ltb_lt 0 rs)) by lia.
    - unfold spanBX. unfold J at 1 3. unfold noBV. cbn [restart_job j_BV]. destruct hasB; [|apply span_nil].
      apply span_wide with 0 rs; [|lia]. left. unfold of_out, asked, J, restart_job. cbn [j_wo j_bx0 if_B given o_ptr o_b o_e andb].
      now rewrite (proj2 (Nat.ltb_lt 0 rs)) by lia. }
  destruct (C56_update o L cplx pbs imax sq Hp J Lay np mV mem Hn ltac:(auto) ltac:(reflexivity))
    as (res & Er & Hm & HR & Hr & _ & HG & HH).
  assert (EB : forall p, rotated o (mem p) (ptr_or (j_BV J) (j_V J)) (j_nV J) (j_h J) = BV p).
  { intros p. unfold BV, J. cbn. destruct hasB; reflexivity. }
  assert (ER : forall p j r, residual o (mem p) J j r = R p j r).
  { intros p j r. unfold residual. rewrite EB. reflexivity. }
  assert (EI : forall j, inner o np mV (fun p => residual o (mem p) J j) (fun p => residual o (mem p) J j)
               = ip (fun p => R p j) (fun p => R p j)).
  { intros j. unfold ip, inner. apply sum_ext. intros p _. apply sum_ext. intros r _. now rewrite ER. }
  exists res. split; [exact Er|]. repeat split.
  - intros j r Hj Hr'. destruct (Hm p H0) as (Hx & _). apply (Hx (j_x0 J) ltac:(cbn; auto) 0 0 j r eq_refl Hj Hr').
  - intros j r Hj Hr'. destruct (Hm p H0) as (_ & Hx & _). apply (Hx 1 0 j r eq_refl Hj Hr').
  - intros j r HB Hj Hr'. destruct (Hm p H0) as (_ & _ & Hx & _). rewrite <- EB. subst hasB.
    apply (Hx (j_bx0 J) ltac:(cbn; auto) 2 0 j r eq_refl Hj Hr').
  - intros j r Hj Hr'. destruct (Hm p H0) as (Hx & _). apply (Hx (j_x1 J) ltac:(cbn; auto) 0 rs j r eq_refl Hj Hr').
  - intros j r Hj Hr'. destruct (Hm p H0) as (_ & _ & _ & Hx & _). rewrite <- ER. apply (Hx 1 rs j r eq_refl Hj Hr').
  - intros j r HB Hj Hr'. destruct (Hm p H0) as (_ & _ & Hx & _). rewrite <- EB. subst hasB.
    apply (Hx (j_bx1 J) ltac:(cbn; auto) 2 rs j r eq_refl Hj Hr').
  - intros j r Hj Hr'. destruct (Hm p H0) as (Hx & _).
    apply (Hx (j_x2 J) ltac:(cbn; auto) 3 ev j r eq_refl); auto. cbn. lia.
  - intros j r HB HBe Hj Hr'. destruct (Hm p H0) as (_ & _ & Hx & _). rewrite <- EB. subst hasB hasBe.
    apply (Hx (j_bx2 J) ltac:(cbn; auto) 4 ev j r eq_refl); auto. cbn. lia.
  - destruct (Hm p H0) as (_ & _ & _ & _ & Hx). apply Hx. right.
    intros x Hin. cbn in Hin. unfold if_B in Hin.
    destruct hasB, hasBe; cbn [andb] in Hin; repeat destruct Hin as [<-|Hin]; try destruct Hin; lay.
  - destruct (Hm p H0) as (_ & _ & _ & _ & Hx). apply Hx. right.
    intros x Hin. cbn in Hin. unfold if_B in Hin.
    destruct hasB, hasBe; cbn [andb] in Hin; repeat destruct Hin as [<-|Hin]; try destruct Hin; lay.
  - intros j Hj. rewrite <- EI. apply HR; auto.
  - intros j Hj. rewrite <- EI. apply Hr; auto.
  - intros n a b EH Ha Hb. apply (HH n); auto.
  - intros n a b EG Ha Hb. rewrite (HG n) by auto. unfold ip, inner. apply sum_ext. intros p _. now rewrite EB.
Qed.

(** The exception: with a single candidate and a last piece of a single row, in
    complex arithmetic the last component of the Ritz vector and of its residual
    are computed from the conjugates of V and W. *)
Section LastRow.
Context {K : Type} (o : scal K) (L : laws o).
Variable cplx : bool. Variable pbs imax : nat. Hypothesis Hp : 2 <= pbs.
Variable J : @job K.
Hypothesis Lay : layout J.

Lemma pieces_last mem0 mV : mV mod pbs = 1 -> forall fuel i m s,
  inv o J mem0 i s -> i < mV -> m = Nat.min pbs (mV - i) -> i mod pbs = 0 -> mV - i <= fuel ->
  exists s1, inv o J mem0 (mV - 1) s1 /\
    pieces o cplx imax fuel J mV i m s = piece o cplx imax J (mV - 1) 1 s1.
Proof.
  intros Hx. induction fuel as [|f IH]; intros i m s Hi Hlt Hm Hd Hf; [lia|].
  cbn [pieces]. rewrite (proj2 (Nat.ltb_lt i mV)) by auto.
  destruct (Nat.eq_dec (mV - i) 1) as [E|E].
  - exists s. replace (mV - 1) with i by lia. split; [auto|]. replace m with 1 by lia.
    destruct (piece o cplx imax J i 1 s) as [s'|]; [|reflexivity]. cbn [bind].
    destruct f; cbn [pieces]; auto. rewrite (proj2 (Nat.ltb_ge (i + 1) mV)) by lia. reflexivity.
  - assert (Hge : pbs < mV - i).
    { destruct (Nat.lt_ge_cases pbs (mV - i)); auto. exfalso.
      replace mV with (i + (mV - i)) in Hx by lia. rewrite Nat.add_mod, Hd in Hx by lia. cbn [Nat.add] in Hx.
      rewrite Nat.mod_mod in Hx by lia. destruct (Nat.eq_dec (mV - i) pbs) as [Ee|Ee].
      - rewrite Ee, Nat.mod_same in Hx by lia. lia.
      - rewrite Nat.mod_small in Hx by lia. lia. }
    replace m with pbs in * by lia.
    assert (W : forall s, okw cplx pbs s).
    { intros s0. unfold okw. rewrite (proj2 (Nat.eqb_neq pbs 1)) by lia. now rewrite andb_false_r. }
    destruct (piece_ok o L cplx imax J mem0 Lay i pbs s Hi (W _) (W _) (W _)) as (s1 & E1 & H1).
    rewrite E1. cbn [bind]. apply IH; auto; try lia.
    rewrite Nat.add_mod, Hd, Nat.mod_same by lia. cbn [Nat.add]. apply Nat.mod_0_l. lia.
Qed.
Lemma local_last mem0 mV : mV mod pbs = 1 ->
  exists s1, inv o J mem0 (mV - 1) s1 /\ local o cplx pbs imax J mV mem0 = piece o cplx imax J (mV - 1) 1 s1.
Proof.
  intros Hx. unfold local. assert (mV <> 0). { intros ->. rewrite Nat.mod_0_l in Hx by lia. lia. }
  apply pieces_last; auto; try lia.
  - unfold inv. cbn. repeat split; auto.
  - apply Nat.mod_0_l. lia.
Qed.
End LastRow.

Theorem C56_last_row_refuted :
  (forall {K} (o : scal K), laws o -> forall pbs imax sq mV mem basisSize bs h vals,
     2 <= pbs -> 1 <= imax -> mV mod pbs = 1 ->
     exists res, update_VWXR o true pbs imax sq 1 (candidates_job false true basisSize bs 1 h vals) (fun _ => mV) (fun _ => mem)
                 = Some res /\
       r_mem res 0 0 (basisSize + bs) (mV - 1)
       = sum o basisSize (fun l => kmul o (kconj o (mem 0 l (mV - 1))) (h l 0)) /\
       r_mem res 0 1 (basisSize + bs) (mV - 1)
       = ksub o (sum o basisSize (fun l => kmul o (kconj o (mem 1 l (mV - 1))) (h l 0)))
           (kmul o (vals 0) (sum o basisSize (fun l => kmul o (kconj o (mem 0 l (mV - 1))) (h l 0))))) /\
  (forall imax sq mV, 1 <= imax -> mV mod 512 = 1 -> exists mem h vals res,
     update_VWXR Gs true 512 imax sq 1 (candidates_job false true 1 0 1 h vals) (fun _ => mV) (fun _ => mem) = Some res /\
     r_mem res 0 0 1 (mV - 1) <> rotated Gs mem (0, 0) 1 h 0 (mV - 1)).
Proof.
  assert (Gen : forall K (o : scal K), laws o -> forall pbs imax sq mV mem basisSize bs h vals,
     2 <= pbs -> 1 <= imax -> mV mod pbs = 1 ->
     exists res, update_VWXR o true pbs imax sq 1 (candidates_job false true basisSize bs 1 h vals) (fun _ => mV) (fun _ => mem)
                 = Some res /\
       r_mem res 0 0 (basisSize + bs) (mV - 1)
       = sum o basisSize (fun l => kmul o (kconj o (mem 0 l (mV - 1))) (h l 0)) /\
       r_mem res 0 1 (basisSize + bs) (mV - 1)
       = ksub o (sum o basisSize (fun l => kmul o (kconj o (mem 1 l (mV - 1))) (h l 0)))
           (kmul o (vals 0) (sum o basisSize (fun l => kmul o (kconj o (mem 0 l (mV - 1))) (h l 0))))).
  { intros K o L pbs imax sq mV mem basisSize bs h vals Hp Hi Hx.
    set (J := candidates_job false true basisSize bs 1 h vals).
    assert (Lay : layout J) by apply (C56_callers o false false None None basisSize 0 1 h vals).
    destruct (local_last o L true pbs imax Hp J Lay mem mV Hx) as (s1 & Hinv & El).
    assert (Hmem : forall a c r, s_mem s1 a c (mV - 1 + r) = mem a c (mV - 1 + r)).
    { intros a c r. rewrite (Logic.proj1 Hinv), (proj2 (Nat.ltb_ge _ _)) by lia. reflexivity. }
    assert (SX : spanX imax J = (0, 1)). { unfold spanX, span. cbn. rewrite Nat.min_0_r. reflexivity. }
    assert (SY : spanY imax J = (0, 1)). { unfold spanY, span. cbn. rewrite Nat.min_0_r. reflexivity. }
    unfold update_VWXR. cbn [each bind]. rewrite El. unfold piece. cbv zeta. rewrite SX, SY.
    unfold J, candidates_job, writes, noBV, if_B, none, no_norms, inside, given.
    cbn [fst snd Nat.ltb Nat.leb bind j_V j_W j_BV j_x0 j_x1 j_x2 j_wo j_r j_Rnorms j_bx0 j_bx1 j_bx2 j_rn j_G j_H j_xn
         o_ptr o_b o_e n_given n_b n_e forallb negb orb andb fold_left].
    eexists. split; [reflexivity|]. cbn [r_mem s_mem Nat.eqb].
    assert (Hc : forall a a' c b e ptr, covers (Out (Some (a', ptr)) b e) a c = (a =? a') && (ptr <=? c) && (c <? ptr + (e - b)))
      by reflexivity.
    assert (Hn : forall a c, covers (Out None 0 0) a c = false) by reflexivity.
    unfold wr. cbn [fst snd o_b o_ptr]. rewrite ?Hc, ?Hn. cbn [Nat.eqb andb].
    cbn [Nat.sub]. rewrite !Nat.leb_refl, (proj2 (Nat.ltb_lt (basisSize + bs) (basisSize + bs + 1))),
      (proj2 (Nat.ltb_lt (mV - 1) (mV - 1 + 1))) by lia.
    cbn [Nat.eqb andb fst snd o_b o_ptr]. unfold residuals. cbn [j_vals fst snd].
    unfold product. cbn [fst snd j_nV j_h Nat.eqb andb Nat.sub Nat.add].
    assert (Em : forall a c, s_mem s1 a c (mV - 1 + (mV - 1 - (mV - 1))) = mem a c (mV - 1)).
    { intros a c. rewrite Hmem. f_equal. lia. }
    rewrite ?Hc, ?Hn. cbn [Nat.eqb andb Nat.sub Nat.add].
    split.
    - apply sum_ext. intros l _. rewrite Em, Nat.sub_diag. reflexivity.
    - f_equal.
      + apply sum_ext. intros l _. rewrite ?Hc, ?Hn. cbn [Nat.eqb andb]. rewrite Em, Nat.sub_diag. reflexivity.
      + f_equal; [now rewrite Nat.sub_diag|]. apply sum_ext. intros l _. rewrite Em, Nat.sub_diag. reflexivity. }
  split; [exact Gen|].
  intros imax sq mV Hi Hx. exists (fun _ _ _ => gi 0 1), (fun _ _ => k1 Gs), (fun _ => k0 Gs).
  destruct (Gen _ Gs Gs_laws 512 imax sq mV (fun _ _ _ => gi 0 1) 1 0 (fun _ _ => k1 Gs) (fun _ => k0 Gs)) as (res & E & H1 & _); auto.
  { apply Nat.leb_le. vm_compute. reflexivity. }
  exists res. split; [exact E|]. change (1 + 0) with 1 in H1. rewrite H1. unfold rotated. intros E1.
  apply (f_equal gim) in E1. vm_compute in E1. discriminate.
Qed.

(** Cases: a restart from three vectors to two, in place, on two processes with 3 and
    2 rows in pieces of 2 rows; pair 1 is locked and pair 0 stays in the block. *)
Definition exV : @memory Qc := fun a c r => q (Z.of_nat (1 + a * 7 + c * c * 3 + r * (c + a + 2))).
Definition exh : nat -> nat -> Qc := fun l j => q (Z.of_nat (l * l + 2 * j + 1) - 3)%Z.
Definition exvals : nat -> Qc := fun j => q (Z.of_nat j + 2)%Z.
Definition exJ := restart_job (K:=Qc) false false None (Some 2) 3 2 1 1 1 0 exh exvals.
Definition exrows (p : nat) : nat := match p with 0 => 3 | _ => 2 end.
Definition exmem (p : nat) : @memory Qc := fun a c r => exV a c (3 * p + r).
Definition exrun := update_VWXR Qs false 2 100 (fun z => z) 2 exJ exrows exmem.
Example ex_restart_hyps : 2 <= 2 /\ 1 <= 2 /\ layout exJ.
Proof. repeat split; try lia; apply (C56_callers Qs false false None (Some 2) 3 2 1 exh exvals). Qed.
Example ex_restart_run : on_run exrun (fun res =>
  Qc_eq_bool (r_mem res 0 0 1 2) (rotated Qs (exmem 0) (0, 0) 3 exh 1 2) &&
  Qc_eq_bool (r_mem res 1 1 0 1) (rotated Qs (exmem 1) (1, 0) 3 exh 0 1) &&
  Qc_eq_bool (r_mem res 1 3 0 0) (rotated Qs (exmem 1) (0, 0) 3 exh 1 0) &&
  negb (Qc_eq_bool (r_mem res 0 0 1 2) (exmem 0 0 1 2)) &&
  Qc_eq_bool (r_mem res 0 0 2 3) (exmem 0 0 2 3) &&
  negb (Qc_eq_bool (r_H res 0 1) (q 0)) && negb (Qc_eq_bool (r_R res 0) (q 0))) = true.
Proof. vm_compute. reflexivity. Qed.
(** 513 rows in pieces of 512: the exception of complex arithmetic is met. *)
Example ex_last_row_hyps : 513 mod 512 = 1.
Proof. vm_compute. reflexivity. Qed.
Example ex_kernel_hyps : real_build Gs true /\ real_build Qs false.
Proof. split; [apply Gs_complex | apply Qs_real]. Qed.

(** ** The distribution of the rows does not matter: a run on np processes leaves in each
    the rows that a run on one process leaves, and the same numbers in all. *)
Fixpoint offset (mV : nat -> nat) (p : nat) : nat := match p with 0 => 0 | S p' => offset mV p' + mV p' end.
Section Distribution.
Context {K : Type} (o : scal K) (L : laws o).
Variable cplx : bool. Variable pbs imax : nat. Variable sq : K -> K.
Hypothesis Hp : 2 <= pbs.
Variable J : @job K.
Hypothesis Lay : layout J.

Lemma inner_offset (mV : nat -> nat) (x y : nat -> nat -> K) (x1 y1 : nat -> K) : forall np,
  (forall p r, p < np -> r < mV p -> x p r = x1 (offset mV p + r)) ->
  (forall p r, p < np -> r < mV p -> y p r = y1 (offset mV p + r)) ->
  inner o np mV x y = sum o (offset mV np) (fun r => kmul o (kconj o (x1 r)) (y1 r)).
Proof.
  induction np as [|np IH]; intros Hx Hy; [reflexivity|].
  unfold inner in *. cbn [sum offset]. rewrite IH by (intros; auto).
  rewrite (sum_split o L). f_equal. apply sum_ext. intros r Hr. now rewrite Hx, Hy by lia.
Qed.
Lemma inner_one (mV : nat -> nat) (x y : nat -> nat -> K) :
  inner o 1 mV x y = sum o (mV 0) (fun r => kmul o (kconj o (x 0 r)) (y 0 r)).
Proof. unfold inner. cbn [sum]. apply (Radd_0_l (F_R (l_field o L))). Qed.

Theorem C56_distribution : forall np mV mem (whole : @memory K),
  1 <= np ->
  (cplx = true -> forall p, p < np -> regular_rows pbs imax J (mV p)) ->
  (cplx = true -> regular_rows pbs imax J (offset mV np)) ->
  (j_Rnorms J = true -> given (j_r J) = true) ->
  (forall p a c r, p < np -> r < mV p -> mem p a c r = whole a c (offset mV p + r)) ->
  exists res one, update_VWXR o cplx pbs imax sq np J mV mem = Some res /\
    update_VWXR o cplx pbs imax sq 1 J (fun _ => offset mV np) (fun _ => whole) = Some one /\
    (forall p a c r, p < np -> r < mV p -> r_mem res p a c r = r_mem one 0 a c (offset mV p + r)) /\
    (forall j, j_Rnorms J = true -> o_b (j_r J) + j < o_e (j_r J) -> r_R res j = r_R one j) /\
    (forall j, n_given (j_rn J) = true -> n_b (j_rn J) + j < n_e (j_rn J) -> r_r res j = r_r one j) /\
    (forall j, n_given (j_xn J) = true -> n_b (j_xn J) + j < n_e (j_xn J) -> r_x res j = r_x one j) /\
    (forall n a b, j_G J = Some n -> a < n -> b < n -> r_G res a b = r_G one a b) /\
    (forall n a b, j_H J = Some n -> a < n -> b < n -> r_H res a b = r_H one a b).
Proof.
  intros np mV mem whole Hn Hx Hx1 HR Hw.
  destruct (C56_update o L cplx pbs imax sq Hp J Lay np mV mem Hn Hx HR) as (res & Er & Hm & HRn & Hrn & Hxn & HG & HH).
  destruct (C56_update o L cplx pbs imax sq Hp J Lay 1 (fun _ => offset mV np) (fun _ => whole) (le_n 1)
    ltac:(auto) HR) as (one & Eo & Hm1 & HRn1 & Hrn1 & Hxn1 & HG1 & HH1).
  exists res, one. split; [exact Er|]. split; [exact Eo|].
  assert (Er' : forall A p j r, p < np -> r < mV p ->
    rotated o (mem p) A (j_nV J) (j_h J) j r = rotated o whole A (j_nV J) (j_h J) j (offset mV p + r)).
  { intros A p j r Hpn Hr. unfold rotated. apply sum_ext. intros l _. now rewrite Hw. }
  assert (ER : forall p j r, p < np -> r < mV p -> residual o (mem p) J j r = residual o whole J j (offset mV p + r)).
  { intros p j r Hpn Hr. unfold residual. now rewrite !Er'. }
  assert (Hoff : forall p r, p < np -> r < mV p -> offset mV p + r < offset mV np).
  { intros p r Hpn Hr. assert (E : offset mV (S p) <= offset mV np).
    { clear - Hpn. induction np as [|n IH]; [lia|]. destruct (Nat.eq_dec p n) as [->|]; [lia|].
      cbn [offset] in *. specialize (IH ltac:(lia)). lia. }
    cbn [offset] in E. lia. }
  split; [|repeat split].
  - intros p a c r Hpn Hr.
    destruct (Hm p Hpn) as (H1 & H2 & H3 & H4 & H5). destruct (Hm1 0 (le_n 1)) as (G1 & G2 & G3 & G4 & G5).
    pose proof (Hoff p r Hpn Hr) as Ho.
    assert (At : forall x v w, holds (mV p) (r_mem res p) x v -> holds (offset mV np) (r_mem one 0) x w ->
       (forall j, v j r = w j (offset mV p + r)) ->
       covers x a c = true -> r_mem res p a c r = r_mem one 0 a c (offset mV p + r)).
    { intros x v w Hv Hww E Hc. unfold covers in Hc. destruct (o_ptr x) as [[a' c']|] eqn:Ep; [|discriminate].
      apply andb_true_iff in Hc. destruct Hc as [Hc E3]. apply andb_true_iff in Hc. destruct Hc as [E1 E2].
      apply Nat.eqb_eq in E1. apply Nat.leb_le in E2. apply Nat.ltb_lt in E3. subst a'.
      replace c with (c' + (c - c')) by lia. rewrite (Hv a c' (c - c') r Ep), (Hww a c' (c - c') _ Ep) by lia. apply E. }
    destruct (existsb (fun x => covers x a c) (outputs J)) eqn:Ex.
    + apply existsb_exists in Ex. destruct Ex as (x & Hin & Hc).
      assert (Xin : forall y, In y [j_x0 J; j_x1 J; j_x2 J] -> x = y -> r_mem res p a c r = r_mem one 0 a c (offset mV p + r)).
      { intros y Hy ->. apply (At y _ _ (H1 y Hy) (G1 y Hy)); auto. }
      assert (Bin : forall y, In y [j_bx0 J; j_bx1 J; j_bx2 J] -> x = y -> r_mem res p a c r = r_mem one 0 a c (offset mV p + r)).
      { intros y Hy ->. apply (At y _ _ (H3 y Hy) (G3 y Hy)); auto. }
      unfold outputs in Hin. cbn [In] in Hin.
      destruct Hin as [E|[E|[E|[E|[E|[E|[E|[E|[]]]]]]]]].
      1,2,3: apply (Xin x); auto; rewrite <- E; cbn [In]; auto.
      2,3,4: apply (Bin x); auto; rewrite <- E; cbn [In]; auto.
      * subst x. apply (At (j_wo J) _ _ H2 G2); auto.
      * subst x. apply (At (j_r J) _ _ H4 G4); auto.
    + assert (Hno : forall x, In x (outputs J) -> covers x a c = false).
      { intros x Hin. destruct (covers x a c) eqn:E; auto. exfalso.
        assert (existsb (fun x => covers x a c) (outputs J) = true) by (apply existsb_exists; eauto). congruence. }
      rewrite H5, G5 by auto. apply Hw; auto.
  - intros j E Hj. rewrite HRn, HRn1 by auto. f_equal. rewrite inner_one.
    apply (inner_offset mV _ _ (residual o whole J (o_b (j_r J) + j)) (residual o whole J (o_b (j_r J) + j))); auto.
  - intros j E Hj. rewrite Hrn, Hrn1 by auto. f_equal. rewrite inner_one.
    apply (inner_offset mV _ _ (residual o whole J (n_b (j_rn J) + j)) (residual o whole J (n_b (j_rn J) + j))); auto.
  - intros j E Hj. rewrite Hxn, Hxn1 by auto. f_equal. rewrite inner_one.
    apply (inner_offset mV _ _ (rotated o whole (j_V J) (j_nV J) (j_h J) (n_b (j_xn J) + j))
             (rotated o whole (j_V J) (j_nV J) (j_h J) (n_b (j_xn J) + j))); auto.
  - intros n a b E Ha Hb. rewrite (HG n), (HG1 n) by auto. rewrite inner_one.
    apply (inner_offset mV _ _ (rotated o whole (j_V J) (j_nV J) (j_h J) a)
             (rotated o whole (ptr_or (j_BV J) (j_V J)) (j_nV J) (j_h J) b)); auto.
  - intros n a b E Ha Hb. rewrite (HH n), (HH1 n) by auto. rewrite inner_one.
    apply (inner_offset mV _ _ (rotated o whole (j_V J) (j_nV J) (j_h J) a)
             (rotated o whole (ptr_or (j_W J) (j_V J)) (j_nV J) (j_h J) b)); auto.
Qed.
End Distribution.
Example ex_distribution_hyps : forall p a c r, p < 2 -> r < exrows p -> exmem p a c r = exV a c (offset exrows p + r).
Proof. intros [|[|p]] a c r Hp Hr; try lia; reflexivity. Qed.
