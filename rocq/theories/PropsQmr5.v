(** C53 with a mass matrix: the norm of the correction, the value and the residual norm
    followed. *)
From Coq Require Import List Arith Lia Bool QArith Qcanon.
From Verif Require Import Base ProjModel SpecProj PropsProj QmrModel SpecQmr PropsQmr PropsQmr2 PropsQmr4 PropsExtract2
  MassNormModel.
From Verif Require SelectProofs.
Import ListNotations.
Local Open Scope nat_scope.
Set Implicit Arguments.

(** ** The norm of the correction *)
Section Norm.
Context {K : Type} (dt : list K -> list K -> K) (Bm : list K -> list K).

Lemma columns_nth (mem : list K) ld rows : forall n j, j + n = 0 \/ (n = 0 \/ (j + n - 1) * ld + rows <= length mem) ->
  exists cs, columns mem ld rows j n = Some cs /\ length cs = n /\
    forall i, i < n -> nth_error cs i = Some (firstn rows (skipn ((j + i) * ld) mem)).
Proof.
  induction n as [|n IH]; intros j H.
  - exists []. repeat split; auto. intros; lia.
  - assert (H1 : (j + S n - 1) * ld + rows <= length mem) by (destruct H as [H|[H|H]]; lia).
    replace (j + S n - 1) with (j + n) in H1 by lia.
    assert (j * ld <= (j + n) * ld) by (apply Nat.mul_le_mono_r; lia).
    destruct (IH (S j)) as (cs & E & L & N).
    { right. destruct (Nat.eq_dec n 0); [left; auto|right]. replace (S j + n - 1) with (j + n) by lia. exact H1. }
    exists (firstn rows (skipn (j * ld) mem) :: cs). cbn [columns]. unfold column.
    destruct (Nat.leb_spec (j * ld + rows) (length mem)) as [_|F]; [|lia]. cbn [bind]. rewrite E. cbn [bind].
    split; [reflexivity|]. split; [cbn; lia|]. intros [|i] Hi.
    + rewrite Nat.add_0_r. reflexivity.
    + cbn [nth_error]. rewrite N by lia. do 3 f_equal. lia.
Qed.

Lemma dots_nth : forall xs ys i x y, nth_error xs i = Some x -> nth_error ys i = Some y ->
  nth_error (dots dt xs ys) i = Some (dt x y).
Proof.
  induction xs as [|a xs IH]; intros ys [|i] x y Hx Hy; try discriminate; destruct ys as [|b ys]; try discriminate; cbn in *.
  - congruence.
  - apply IH; auto.
Qed.

Lemma concat_rows (cs : list (list K)) rows : (forall c, In c cs -> length c = rows) ->
  length (concat cs) = length cs * rows /\
  forall i c, nth_error cs i = Some c -> firstn rows (skipn (i * rows) (concat cs)) = c.
Proof.
  induction cs as [|a cs IH]; intros H.
  - split; [reflexivity|]. intros [|i] c E; discriminate.
  - destruct IH as [I1 I2]; [intros; apply H; right; auto|].
    assert (La : length a = rows) by (apply H; left; auto). cbn [concat length]. split.
    + rewrite app_length, I1, La. lia.
    + intros [|i] c E; cbn in E.
      * injection E as <-. cbn [Nat.mul skipn]. rewrite firstn_app, La, Nat.sub_diag, <- La, firstn_all. cbn. apply app_nil_r.
      * cbn [Nat.mul]. rewrite skipn_app, La. rewrite skipn_all2 by lia.
        replace (rows + i * rows - rows) with (i * rows) by lia. apply I2. exact E.
Qed.

(** With primme.ldOPs equal to the number of rows (what the solver chooses) entry j is the
    square of the norm of column j in the inner product of B. *)
Theorem C53_mass_norm same nLocal blockSize (sol : list K) :
  length sol = nLocal * blockSize ->
  exists ns, bnormsol dt Bm same nLocal nLocal blockSize sol = Some ns /\
    forall j, j < blockSize ->
      let c := firstn nLocal (skipn (j * nLocal) sol) in nth_error ns j = Some (dt c (Bm c)).
Proof.
  intros L. unfold bnormsol, mass_call.
  destruct (@columns_nth sol nLocal nLocal blockSize 0) as (cs & E & Lc & N).
  { destruct blockSize as [|b]; [left; lia|right; right]. rewrite L. replace (0 + S b - 1) with b by lia. nia. }
  rewrite E. cbn [bind].
  assert (N' : forall j, j < blockSize -> nth_error cs j = Some (firstn nLocal (skipn (j * nLocal) sol))) by (intros; apply N; auto).
  destruct same.
  - cbn [bind]. eexists. split; [reflexivity|]. intros j Hj; cbv zeta; apply dots_nth; [apply N'; auto|].
    rewrite nth_error_map, N' by auto. reflexivity.
  - assert (R : forall c, In c cs -> length c = nLocal).
    { intros c Hc. apply In_nth_error in Hc. destruct Hc as [i Hi].
      assert (i < length cs) by (apply nth_error_Some; congruence).
      rewrite N' in Hi by lia. injection Hi as <-. rewrite firstn_length, skipn_length, L.
      assert (S i * nLocal <= blockSize * nLocal) by (apply Nat.mul_le_mono_r; lia). lia. }
    destruct (concat_rows cs R) as [C1 C2].
    destruct (@columns_nth (concat cs) nLocal nLocal blockSize 0) as (ds & F & Ld & Nd).
    { destruct blockSize as [|b]; [left; lia|right; right]. rewrite C1, Lc. replace (0 + S b - 1) with b by lia. nia. }
    rewrite F. cbn [bind].
    assert (G : (blockSize =? 0) || ((blockSize - 1) * nLocal + nLocal <=? nLocal * blockSize) = true).
    { destruct blockSize as [|b]; [reflexivity|]. apply orb_true_iff. right. apply Nat.leb_le.
      replace (S b - 1) with b by lia. nia. }
    rewrite G. cbn [bind]. eexists. split; [reflexivity|]. intros j Hj; cbv zeta; apply dots_nth; [apply N'; auto|].
    rewrite nth_error_map, Nd by auto. cbn [Nat.add option_map]. f_equal. f_equal. apply C2. apply N'. auto.
Qed.

(** With a block of one vector and the working type also for any larger ldOPs. *)
Theorem C53_mass_norm_one nLocal ldsol (sol : list K) :
  nLocal <= ldsol -> length sol = ldsol ->
  let c := firstn nLocal sol in bnormsol dt Bm true nLocal ldsol 1 sol = Some [dt c (Bm c)].
Proof.
  intros H L. unfold bnormsol, mass_call. cbn [columns]. unfold column. cbn [Nat.mul Nat.add skipn].
  destruct (Nat.leb_spec nLocal (length sol)) as [_|F]; [|lia]. reflexivity.
Qed.

(** Otherwise the rows and the leading dimension, which are given in the wrong order,
    matter.  With the working type the norms of all but the first column are those of other
    entries of the array (one row, ldOPs = 2, two columns: of the first padding row instead
    of the second column), and with another type the copy back leaves the array w. *)
Theorem C53_mass_norm_refuted :
  (forall a b c d : K, bnormsol dt Bm true 1 2 2 [a; b; c; d] = Some [dt [a] (Bm [a]); dt [c] (Bm [b])]) /\
  (forall nLocal ldsol blockSize (sol : list K), 0 < blockSize -> nLocal < ldsol ->
     bnormsol dt Bm false nLocal ldsol blockSize sol = None).
Proof.
  split; [reflexivity|]. intros n l b sol Hb Hl. unfold bnormsol, mass_call.
  destruct (columns sol n l 0 b) as [copy|]; [|reflexivity]. cbn [bind].
  destruct (columns (concat copy) l n 0 b) as [cs|]; [|reflexivity]. cbn [bind].
  assert (G : (b =? 0) || ((b - 1) * n + l <=? n * b) = false).
  { apply orb_false_iff. split; [apply Nat.eqb_neq; lia|apply Nat.leb_gt]. destruct b; [lia|]. replace (S b - 1) with b by lia. nia. }
  rewrite G. reflexivity.
Qed.
End Norm.

(** Two columns of two rows, B = diag(1, 2): the norms are 1 + 2 * 4 and 9 + 2 * 16. *)
Example C53_mass_norm_case :
  bnormsol (fun a b => fold_right Nat.add 0 (map (fun z => fst z * snd z) (combine a b)))
    (fun v => map (fun z => fst z * snd z) (combine [1; 2] v)) false 2 2 2 [1; 2; 3; 4] = Some [9; 41].
Proof. reflexivity. Qed.
(** The second case of C53_mass_norm_refuted: 21 instead of 9, the row between the
    columns holding 7. *)
Example C53_mass_norm_wrong :
  bnormsol (fun a b => fold_right Nat.add 0 (map (fun z => fst z * snd z) (combine a b))) (fun v => v) true 1 2 2 [1; 7; 3; 0]
    = Some [1; 21].
Proof. reflexivity. Qed.

(** ** The value followed

    A case of order 2: x = e0 has norm one in the inner product of B, its Rayleigh quotient
    is 2 and its residual (0, 1). *)
Definition mA := times_v Qs 2 (tab [[2;3];[3;9]]%Z).
Definition mB := times_v Qs 2 (tab [[1;1];[1;3]]%Z).
Definition mX : nat -> nat -> Qc := jX.
Definition mBX : nat -> nat -> Qc := fun j => mB (jX j).
Definition mr : nat -> Qc := fun e => (mA (jX 0) e - q 2 * mB (jX 0) e)%Qc.
(** Left and right projections with Q and x, no skew ones, no preconditioner. *)
Definition mc := Choice true true true true false false false true true 0 2.
Definition ms : setup :=
  match setup_JD_projectors Qs mc 2 (fun v => v) mX mBX jQ (Some jQ) jQ 0 0 1 with
  | Some s => s | None => Setup jQ None 0 0 jQ jQ 0 jQ 0 jQ (fun _ => 0%Qc) end.
Definition mM (v : nat -> Qc) : nat -> Qc :=
  match apply_projected_matrix Qs jsolve mc 2 mA mB ms jshift 0 v with Some w => w | None => v end.
Definition mK (v : nat -> Qc) : nat -> Qc :=
  match apply_projected_preconditioner Qs jsolve mc 2 (fun v => v) ms Null 0 v with Some w => w | None => v end.

Lemma m_laws : real_product Qs (vecs Qs 2).
Proof. split; intros; cbn; ring. Qed.
Lemma m_ritz : ritz_mass Qs (vecs Qs 2) mA mB (mX 0) mr (q 2).
Proof.
  split; try (split; intros; unfold mA, mB, times_v, tab; cbn -[q Qcplus Qcmult Qcopp Qcminus]; ring);
    try (intros; unfold mA, mB, times_v, tab; cbn -[q Qcplus Qcmult Qcopp Qcminus]; ring);
    try (apply Qc_is_canon; vm_compute; reflexivity).
  intros v. unfold mr, mA, mB, times_v, tab. cbn -[q Qcplus Qcmult Qcopp Qcminus]. ring.
Qed.

(** The right projection the code applies is I - Bx x', that of the left: the directions are
    orthogonal to x and not to Bx (the comment of inner_solve.c 59 has I - x x'B).  The value
    followed is then not the Rayleigh quotient of x - sol for the pencil, nor of x minus
    the part of sol orthogonal to x in the inner product of B. *)
Theorem C53_mass_value_refuted : exists c n A B X BX Q BQ hat s theta r M Kp q,
  leftX c = true /\ rightX c = true /\ rightQ c = true /\ precondition c = false /\ mass c = true /\
  ritz_mass Qs (vecs Qs n) A B (X 0) r theta /\ (forall e, BX 0 e = B (X 0) e) /\
  setup_JD_projectors Qs c n (fun v => v) X BX Q (Some BQ) hat 0 0 1 = Some s /\
  (forall v, apply_projected_matrix Qs jsolve c n A B s jshift 0 v = Some (M v)) /\
  (forall v, apply_projected_preconditioner Qs jsolve c n (fun v => v) s Null 0 v = Some (Kp v)) /\
  qmr_run Qs (vecs Qs n) M Kp r (inner Qs n r r) 0 = Some q /\
  let x := X 0 in
  let y1 := (fun e => x e - qsol q e)%Qc in
  let y2 := (fun e => x e - (qsol q e - inner Qs n x (B (qsol q)) * x e))%Qc in
  let ev := eval_updated_mass Qs (vecs Qs n) B theta (jshift 0) q in
  (inner Qs n x (qsol q) = 0 /\ inner Qs n x (B (qsol q)) <> 0 /\
   ev * inner Qs n y1 (B y1) <> inner Qs n y1 (A y1) /\
   ev * inner Qs n y2 (B y2) <> inner Qs n y2 (A y2))%Qc.
Proof.
  set (test := fun q : qst Qc (nat -> Qc) =>
    let x := mX 0 in
    let y1 := (fun e => x e - qsol q e)%Qc in
    let y2 := (fun e => x e - (qsol q e - inner Qs 2 x (mB (qsol q)) * x e))%Qc in
    let ev := eval_updated_mass Qs (vecs Qs 2) mB (PropsProj.q 2) (jshift 0) q in
    Qc_eq_bool (inner Qs 2 x (qsol q)) 0%Qc &&
    negb (Qc_eq_bool (inner Qs 2 x (mB (qsol q))) 0%Qc) &&
    negb (Qc_eq_bool (ev * inner Qs 2 y1 (mB y1))%Qc (inner Qs 2 y1 (mA y1))) &&
    negb (Qc_eq_bool (ev * inner Qs 2 y2 (mB y2))%Qc (inner Qs 2 y2 (mA y2)))).
  destruct (@on_run_ok _ (qmr_run Qs (vecs Qs 2) mM mK mr (inner Qs 2 mr mr) 0) test) as [q [H1 H2]].
  { vm_compute. reflexivity. }
  exists mc, 2, mA, mB, mX, mBX, jQ, jQ, jQ, ms, (PropsProj.q 2), mr, mM, mK, q.
  do 5 (split; [reflexivity|]). split; [exact m_ritz|]. split; [reflexivity|]. split; [reflexivity|].
  split; [reflexivity|]. split; [reflexivity|]. split; [exact H1|]. cbv zeta.
  unfold test in H2. cbv zeta in H2. rewrite !andb_true_iff in H2. destruct H2 as [[[A B] C] D].
  split; [apply qceq; exact A|]. repeat split; apply qcne; apply negb_true_iff; assumption.
Qed.

(** ** The residual norm followed

    With directions orthogonal to Bx (here with the right projection I - x x'B) the value
    is the Rayleigh quotient (C53_mass_ritz_value), but the residual norm is not that of
    the corrected vector: in the inner product the norms are taken in, the residual of the
    linear system is orthogonal to x and not to Bx, and By has another norm than y. *)
Definition nK (v : nat -> Qc) : nat -> Qc := fun e => (v e - mX 0 e * inner Qs 2 (mBX 0) v)%Qc.
Definition nU (u : nat -> Qc) : Prop := vdot (vecs Qs 2) (mX 0) (mB u) = 0%Qc.
Definition nW (w : nat -> Qc) : Prop := vdot (vecs Qs 2) (mX 0) w = 0%Qc.
Definition nM (v : nat -> Qc) : nat -> Qc :=
  fun e => let w := fun e => (mA v e - mB v e)%Qc in (w e - mBX 0 e * inner Qs 2 (mX 0) w)%Qc.
Lemma n_one : q 1 = 1%Qc. Proof. reflexivity. Qed.
Lemma n_two : q 2 = (1 + 1)%Qc. Proof. reflexivity. Qed.
Lemma n_three : q 3 = (1 + (1 + 1))%Qc. Proof. reflexivity. Qed.
Lemma n_nine : q 9 = ((1 + (1 + 1)) * (1 + (1 + 1)))%Qc. Proof. reflexivity. Qed.
Ltac two_goal := unfold nU, nW, nK, nM, mX, mBX, mA, mB, times_v, tab, jX, inner, total; cbn -[q Qcplus Qcmult Qcopp Qcminus]; rewrite ?n_one, ?n_two, ?n_three, ?n_nine; change (Q2Qc 0) with 0%Qc.
Lemma n_equation : correction_equation Qs (vecs Qs 2) nM nK mr nU nW.
Proof.
  split.
  - split; [two_goal; ring| |].
    + intros a b Ha Hb. unfold nU in *. cbn [vdot vecs] in *. transitivity (dot Qs 2 (mX 0) (mB a) + dot Qs 2 (mX 0) (mB b))%Qc.
      * two_goal. ring.
      * rewrite Ha, Hb. reflexivity.
    + intros k a Ha. unfold nU in *. cbn [vdot vecs] in *. transitivity (k * dot Qs 2 (mX 0) (mB a))%Qc.
      * two_goal. ring.
      * rewrite Ha. ring.
  - split; [two_goal; ring| |].
    + intros a b Ha Hb. unfold nW in *. cbn [vdot vecs] in *. transitivity (dot Qs 2 (mX 0) a + dot Qs 2 (mX 0) b)%Qc.
      * two_goal. ring.
      * rewrite Ha, Hb. reflexivity.
    + intros k a Ha. unfold nW in *. cbn [vdot vecs] in *. transitivity (k * dot Qs 2 (mX 0) a)%Qc.
      * two_goal. ring.
      * rewrite Ha. ring.
  - split; intros; two_goal; ring.
  - apply Qc_is_canon. vm_compute. reflexivity.
  - intros u _. unfold nW. cbn [vdot vecs]. two_goal. ring.
  - intros g _. unfold nU. cbn [vdot vecs]. two_goal.  ring.
  - intros u v Hu Hv. unfold nU in *. cbn [vdot vecs] in *.
    assert (U1 : (u 0%nat = - u 1%nat)%Qc). { transitivity (dot Qs 2 (mX 0) (mB u) - u 1%nat)%Qc; [two_goal; ring|]. rewrite Hu. ring. }
    assert (V1 : (v 0%nat = - v 1%nat)%Qc). { transitivity (dot Qs 2 (mX 0) (mB v) - v 1%nat)%Qc; [two_goal; ring|]. rewrite Hv. ring. }
    two_goal. rewrite U1, V1. ring.
  - intros a b Ha Hb. unfold nW in *. cbn [vdot vecs] in *.
    assert (A0 : a 0%nat = 0%Qc). { rewrite <- Ha. two_goal. ring. }
    assert (B0 : b 0%nat = 0%Qc). { rewrite <- Hb. two_goal. ring. }
    two_goal. rewrite A0, B0. ring.
Qed.

Theorem C53_mass_residual_refuted : exists n A B x theta s r M Kp U W q,
  correction_equation Qs (vecs Qs n) M Kp r U W /\ ritz_mass Qs (vecs Qs n) A B x r theta /\
  (forall u, U u -> inner Qs n x (B u) = 0%Qc) /\
  (forall u v, inner Qs n (M u) v =
     inner Qs n (A u) v - s * inner Qs n (B u) v
       - (inner Qs n x (A u) - s * inner Qs n x (B u)) * inner Qs n (B x) v)%Qc /\
  qmr_run Qs (vecs Qs n) M Kp r (inner Qs n r r) 0 = Some q /\
  let y := minus Qs (vecs Qs n) x (qsol q) in
  let ev := eval_updated_mass Qs (vecs Qs n) B theta s q in
  let z := (fun e => A y e - ev * B y e)%Qc in
  rayleigh_mass Qs (vecs Qs n) A B y ev /\ inner Qs n y (B y) <> 0%Qc /\
  (eres2_updated_mass Qs (vecs Qs n) B (inner Qs n (B x) (B x)) theta s q * inner Qs n y (B y) <> inner Qs n z z)%Qc.
Proof.
  set (test := fun q : qst Qc (nat -> Qc) =>
    let y := minus Qs (vecs Qs 2) (mX 0) (qsol q) in
    let ev := eval_updated_mass Qs (vecs Qs 2) mB (PropsProj.q 2) 1%Qc q in
    let z := (fun e => mA y e - ev * mB y e)%Qc in
    negb (Qc_eq_bool (inner Qs 2 y (mB y)) 0%Qc) && negb (Qc_eq_bool (bnorm_mass Qs (vecs Qs 2) mB q) 0%Qc) &&
    negb (Qc_eq_bool (eres2_updated_mass Qs (vecs Qs 2) mB (inner Qs 2 (mB (mX 0)) (mB (mX 0))) (PropsProj.q 2) 1%Qc q * inner Qs 2 y (mB y))%Qc (inner Qs 2 z z))).
  destruct (@on_run_ok _ (qmr_run Qs (vecs Qs 2) nM nK mr (inner Qs 2 mr mr) 0) test) as [q [H1 H2]].
  { vm_compute. reflexivity. }
  exists 2, mA, mB, (mX 0), (PropsProj.q 2), 1%Qc, mr, nM, nK, nU, nW, q.
  assert (HU : forall u, nU u -> inner Qs 2 (mX 0) (mB u) = 0%Qc).
  { intros u Hu. rewrite <- Hu. two_goal. ring. }
  assert (HM : forall u v, (inner Qs 2 (nM u) v =
     inner Qs 2 (mA u) v - 1 * inner Qs 2 (mB u) v
       - (inner Qs 2 (mX 0) (mA u) - 1 * inner Qs 2 (mX 0) (mB u)) * inner Qs 2 (mB (mX 0)) v)%Qc).
  { intros u v. two_goal. ring. }
  split; [exact n_equation|]. split; [exact m_ritz|]. split; [exact HU|]. split; [exact HM|].
  split; [exact H1|]. cbv zeta.
  unfold test in H2. cbv zeta in H2. rewrite !andb_true_iff in H2. destruct H2 as [[A B] C].
  split; [|split; apply qcne; apply negb_true_iff; assumption].
  assert (HE : forall u v, nU u -> nU v -> vdot (vecs Qs 2) (nM u) v = (vdot (vecs Qs 2) (mA u) v - 1 * vdot (vecs Qs 2) (mB u) v)%Qc).
  { intros u v Hu Hv. cbn [vdot vecs]. transitivity (inner Qs 2 (nM u) v); [two_goal; ring|]. rewrite HM.
    assert (E : inner Qs 2 (mB (mX 0)) v = 0%Qc) by (rewrite <- (HU v Hv); two_goal; ring).
    rewrite E. two_goal. ring. }
  destruct (C53_mass_ritz_value Qs_laws m_laws _ n_equation 1%Qc 0 m_ritz (fun u H => H) HE H1) as [_ R].
  apply R. apply qcne. apply negb_true_iff. exact B.
Qed.
