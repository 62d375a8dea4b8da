(** C50: the refined vectors minimize the residual, over the reals; and cases. *)
From Coq Require Import List Arith Bool Lia Field Reals Lra QArith Qcanon.
From Verif Require Import Base ProjModel SpecProj MatAlg ExtractModel SpecExtract PropsExtract.
From Verif Require PropsProj.
Import ListNotations.
Local Open Scope nat_scope.

Definition Rs : scal R := Scal R 0%R 1%R Rplus Rmult Rminus Ropp Rdiv Rinv (fun a => a)
  (fun a => if Req_EM_T a 0%R then true else false).

Lemma Rs_laws : laws Rs.
Proof.
  split; auto.
  - exact Rfield.
  - intros a. cbn. destruct (Req_EM_T a 0%R); split; intros; congruence.
Qed.

(** x'y *)
Definition ip (N : nat) (x y : nat -> R) : R := sum Rs N (fun r => (x r * y r)%R).
(** (A - tau I) x *)
Definition residual_at (N : nat) (A : nat -> nat -> R) (tau : R) (x : nat -> R) : nat -> R :=
  fun r => (sum Rs N (fun l => (A r l * x l)%R) - tau * x r)%R.

Lemma sum_le n f g : (forall i, i < n -> (f i <= g i)%R) -> (sum Rs n f <= sum Rs n g)%R.
Proof.
  induction n as [|n IH]; intros H; cbn; [lra|].
  assert (H1 := IH (fun i Hi => H i (Nat.lt_lt_succ_r _ _ Hi))). assert (H2 := H n (Nat.lt_succ_diag_r n)). lra.
Qed.

(** ** C50: among the unit vectors of the basis orthogonal to the previous ones,
    the i-th refined vector has the smallest residual with respect to tau. *)
Theorem C50_refined_minimal (LK : kernels R) t N n A V H tau Q Rf QtQ VtBV e :
  t = ClosestAbs \/ t = ClosestLeq \/ t = ClosestGeq ->
  hermitian Rs N A -> holds_upper n H (form Rs N V A V) ->
  gram Rs N n V (opt Rs VtBV) -> gram Rs N n Q (opt Rs QtQ) -> factored Rs N n A V V tau Q Rf ->
  gesvd_right Rs LK n -> potrf_right Rs LK n -> lsolve_right Rs LK n -> rsolve_right Rs LK n ->
  (forall M U s Vt, gesvd LK n M = Some (U, s, Vt) -> forall i j, i <= j -> j < n -> (0 <= s j <= s i)%R) ->
  solve_H_Ref Rs LK t n H Rf QtQ VtBV = Some e ->
  let y i := fun r => mul Rs n V (hVecs e) r i in
  forall i, i < n ->
  ip N (y i) (y i) = 1%R /\
  ip N (residual_at N A tau (y i)) (residual_at N A tau (y i)) = (hSVals e i * hSVals e i)%R /\
  forall c, let x := fun r => sum Rs n (fun l => (V r l * c l)%R) in
    (forall j, j < i -> ip N (y j) x = 0%R) ->
    (hSVals e i * hSVals e i * ip N x x <= ip N (residual_at N A tau x) (residual_at N A tau x))%R.
Proof.
  intros Ht HA HH HV HQ HF Hsvd Hch Hl Hr Hdec Hs y i Hi.
  destruct (C50_refined Rs Rs_laws LK t N n A V H tau Q Rf QtQ VtBV e HA HH HV HQ HF Hsvd Hch Hl Hr Hs)
    as (E1 & _ & E3 & E4).
  assert (Hasc : forall j k, j <= k -> k < n -> (0 <= hSVals e j <= hSVals e k)%R).
  { unfold solve_H_Ref in Hs.
    destruct (match QtQ with Some _ => _ | None => _ end) as [M|]; [|discriminate]. cbn [bind] in Hs.
    destruct (match VtBV with Some _ => _ | None => _ end) as [[Uo M']|]; [|discriminate]. cbn [bind fst snd] in Hs.
    destruct (gesvd LK n M') as [[[hu s] vt]|] eqn:ES; [|discriminate]. cbn [bind] in Hs.
    destruct (match Uo with Some _ => _ | None => _ end) as [X|]; [|discriminate]. cbn [bind] in Hs.
    injection Hs as <-. cbn [hSVals]. intros j k Hj Hk.
    assert (Ep : forall j, ref_order t n j = n - 1 - j) by (destruct Ht as [->|[->| ->]]; reflexivity).
    rewrite !Ep. destruct (Hdec _ _ _ _ ES (n - 1 - k) (n - 1 - j)); [lia|lia|].
    lra. }
  split.
  { assert (G := E1 i i Hi Hi). unfold one in G. rewrite Nat.eqb_refl in G. exact G. }
  split.
  { assert (G := E3 i i Hi Hi). unfold diag in G. rewrite Nat.eqb_refl in G. exact G. }
  intros c x Ho.
  destruct (E4 1 (fun r _ => c r)) as [G1 G2].
  set (a := mul Rs N _ _) in G1, G2.
  assert (Ha : forall j, j < i -> a j 0 = 0%R) by (intros j Hj; exact (Ho j Hj)).
  assert (X1 : ip N x x = sum Rs n (fun l => (a l 0%nat * a l 0%nat)%R)).
  { exact (G1 0 0 Nat.lt_0_1 Nat.lt_0_1). }
  assert (X2 : ip N (residual_at N A tau x) (residual_at N A tau x)
               = sum Rs n (fun l => (a l 0%nat * (hSVals e l * hSVals e l * a l 0%nat))%R)).
  { transitivity (mul Rs n (adj Rs a) (mul Rs n (diag Rs (fun i => kmul Rs (hSVals e i) (hSVals e i))) a) 0 0).
    - exact (G2 0 0 Nat.lt_0_1 Nat.lt_0_1).
    - unfold mul at 1. apply sum_ext. intros l Hl'. rewrite (mul_diag_l Rs Rs_laws) by exact Hl'. reflexivity. }
  rewrite X1, X2.
  apply (Rle_trans _ _ _ (or_intror (eq_sym (sum_mull Rs Rs_laws n (fun l => (a l 0%nat * a l 0%nat)%R) (hSVals e i * hSVals e i)%R)))).
  apply sum_le. intros l Hl'. cbn [kmul Rs].
  destruct (Nat.lt_ge_cases l i) as [Hli|Hli].
  - rewrite (Ha l Hli). lra.
  - destruct (Hasc i l Hli Hl') as [S1 S2].
    assert (H1 : (hSVals e i * hSVals e i <= hSVals e l * hSVals e l)%R) by (apply Rmult_le_compat; lra).
    assert (H2 : (0 <= a l 0%nat * a l 0%nat)%R) by apply Rle_0_sqr.
    assert (H3 := Rmult_le_compat_r _ _ _ H2 H1). lra.
Qed.

(** ** C50: the order of the harmonic pairs.  theta = tau + 1/mu; the kernels sort
    the values of the eigenproblem in ascending order, and the permutation for
    the target largest in absolute value sorts them so. *)
Definition ascending (LK : kernels R) (n : nat) : Prop :=
  forall A B w X, hegv LK n A B = Some (w, X) -> forall i j, i < j -> j < n -> (w i <= w j)%R.
Definition sorts_abs (LK : kernels R) (n : nat) : Prop :=
  forall w i j, i < j -> j < n -> (Rabs (w (order LK LargestAbs n w j)) <= Rabs (w (order LK LargestAbs n w i)))%R.

Theorem C50_harmonic_order (LK : kernels R) t N n A V H tau Q Rf QtV QtQ VtBV sv e :
  hermitian Rs N A -> holds_upper n H (form Rs N V A V) ->
  gram Rs N n V (opt Rs VtBV) -> gram Rs N n Q (opt Rs QtQ) -> factored Rs N n A V V tau Q Rf ->
  meq n n QtV (mul Rs N (adj Rs Q) V) ->
  hegv_right Rs LK n -> order_right LK n -> lsolve_right Rs LK n -> bortho_right Rs LK n VtBV ->
  ascending LK n -> sorts_abs LK n ->
  solve_H_Harm Rs LK t n H QtV Rf QtQ VtBV sv = Some e ->
  let D := shifted Rs N A V tau in
  exists Z T mu,
    upper_triangular Rs n T /\ meq n n Z (mul Rs n (hVecs e) T) /\
    meq n n (mul Rs N (adj Rs D) (mul Rs n V Z)) (mul Rs n (mul Rs N (adj Rs D) (mul Rs n D Z)) (diag Rs mu)) /\
    forall i j, i < j -> j < n -> mu i <> 0%R -> mu j <> 0%R ->
      let theta k := (tau + / mu k)%R in
      match t with
      | ClosestAbs => (Rabs (theta i - tau) <= Rabs (theta j - tau))%R
      | ClosestGeq => (tau < theta j -> tau < theta i <= theta j)%R
      | ClosestLeq => (theta j < tau -> theta j <= theta i < tau)%R
      | _ => False
      end.
Proof.
  intros HA HH HV HQ HF HQV He Ho Hl Hb Has Hso Hs D.
  destruct (harmonic_full Rs Rs_laws LK t N n A V H tau Q Rf QtV QtQ VtBV sv e HA eq_refl HH HV HQ HF HQV He Ho Hl Hb Hs)
    as (_ & _ & Z & T & mu & P3 & P4 & P5 & _ & _ & t' & QAQ & Et & Es).
  exists Z, T, mu. split; [exact P3|]. split; [exact P4|]. split; [exact P5|].
  intros i j Hij Hj Mi Mj theta. unfold theta.
  replace (tau + / mu i - tau)%R with (/ mu i)%R by ring. replace (tau + / mu j - tau)%R with (/ mu j)%R by ring.
  unfold solve_H_RR in Es. destruct t; cbn [harmonic_target] in Et; try discriminate; injection Et as <-.
  - (** closest_geq: the largest first *)
    destruct (hegv LK n _ QtQ) as [[w X]|] eqn:E; [|discriminate]. cbn [bind fst snd] in Es. injection Es as <- _.
    assert (Hw := Has _ _ _ _ E i j Hij Hj). cbn [kopp Rs] in *. intros Hp.
    assert (Pj : (0 < - w j)%R).
    { destruct (Rlt_le_dec 0 (- w j)) as [|C]; [assumption|]. assert (C' : (- w j < 0)%R) by lra. apply Rinv_lt_0_compat in C'. lra. }
    assert (Pi : (0 < - w i)%R) by lra.
    assert (I1 := Rinv_0_lt_compat _ Pi). split; [lra|].
    assert (/ - w i <= / - w j)%R by (apply Rinv_le_contravar; lra). lra.
  - (** closest_leq: the smallest first *)
    assert (Hw := Has _ _ _ _ Es i j Hij Hj). intros Hp.
    assert (Pj : (mu j < 0)%R).
    { destruct (Rlt_le_dec (mu j) 0) as [|C]; [assumption|]. assert (C' : (0 < mu j)%R) by lra. apply Rinv_0_lt_compat in C'. lra. }
    assert (Pi : (mu i < 0)%R) by lra.
    assert (I1 := Rinv_lt_0_compat _ Pi). split; [|lra].
    assert (/ - mu i <= / - mu j)%R by (apply Rinv_le_contravar; lra).
    replace (/ - mu i)%R with (- / mu i)%R in H0 by (field; lra). replace (/ - mu j)%R with (- / mu j)%R in H0 by (field; lra). lra.
  - destruct (hegv LK n _ QtQ) as [[w X]|] eqn:E; [|discriminate]. cbn [bind fst snd] in Es. injection Es as <- _.
    assert (Hw := Hso w i j Hij Hj). set (a := w (order LK LargestAbs n w i)) in *. set (b := w (order LK LargestAbs n w j)) in *.
    rewrite !Rabs_inv. apply Rinv_le_contravar; [|exact Hw]. apply Rabs_pos_lt. exact Mj.
Qed.

(** ** A case: A of order three whose leading block has the eigenpairs
    0, (3/5, -4/5) and 25, (4/5, 3/5); tau = 9. *)
Notation Qs := PropsProj.Qs.
Notation Qs_laws := PropsProj.Qs_laws.
Notation q := PropsProj.q.
Definition fr (a b : Z) : Qc := Qcdiv (q a) (q b).
Definition tab (l : list (list Z)) : nat -> nat -> Qc := fun i j => q (nth j (nth i l nil) 0%Z).
Definition xA := tab [[16;12;0];[12;9;0];[0;0;5]]%Z.
Definition xV := tab [[1;0];[0;1];[0;0]]%Z.
Definition xH := tab [[16;12];[0;9]]%Z.
Definition xR := tab [[7;12];[12;0]]%Z.
Definition xE : nat -> nat -> Qc := fun i j =>
  match i, j with 0, 0 => fr 3 5 | 1, 0 => fr (-4) 5 | 0, 1 => fr 4 5 | 1, 1 => fr 3 5 | _, _ => q 0 end.
Definition zero_at (M : nat -> nat -> Qc) (i j : nat) : bool := Qc_eq_bool (M i j) 0%Qc.
(** Answers for the matrices of order two that the rotation xE makes diagonal. *)
Definition xK : kernels Qc := Kernels
  (fun n A B => match n, B with
     | 2, None => let D := mul Qs 2 (adj Qs xE) (mul Qs 2 A xE) in
                  if zero_at D 0 1 && zero_at D 1 0 then Some ((fun i => D i i), xE) else None
     | _, _ => None end)
  (fun n M => if (n =? 2) && (zero_at (msub Qs M xR) 0 0 && zero_at (msub Qs M xR) 0 1
                  && zero_at (msub Qs M xR) 1 0 && zero_at (msub Qs M xR) 1 1)
              then Some ((fun i j => match j with 0 => xE i 1 | _ => Qcopp (xE i 0) end),
                         (fun i => match i with 0 => q 16 | _ => q 9 end),
                         (fun i j => match i with 0 => xE j 1 | _ => xE j 0 end))
              else None)
  (fun _ _ => None)
  (fun n A B => let det := Qcminus (Qcmult (A 0 0) (A 1 1)) (Qcmult (A 0 1) (A 1 0)) in
     if (n =? 2) && negb (Qc_eq_bool det 0%Qc)
     then Some (fun i j => if i =? 0 then Qcdiv (Qcminus (Qcmult (B 0 j) (A 1 1)) (Qcmult (A 0 1) (B 1 j))) det
                           else Qcdiv (Qcminus (Qcmult (A 0 0) (B 1 j)) (Qcmult (B 0 j) (A 1 0))) det)
     else None)
  (fun _ _ _ => None)
  (fun n X G => match n, G with
     | 2, None => if zero_at (mul Qs 2 (adj Qs xE) X) 1 0 then Some xE else None
     | _, _ => None end)
  (fun _ _ _ i => i).

Lemma lt2 i : i < 2 -> i = 0 \/ i = 1. Proof. lia. Qed.
Lemma lt3 i : i < 3 -> i = 0 \/ i = 1 \/ i = 2. Proof. lia. Qed.
Ltac cases2 i j Hi Hj := destruct (lt2 i Hi) as [->| ->]; destruct (lt2 j Hj) as [->| ->].

Lemma xE_orth : meq 2 2 (mul Qs 2 (adj Qs xE) xE) (one Qs).
Proof. intros i j Hi Hj. cases2 i j Hi Hj; apply Qc_is_canon; vm_compute; reflexivity. Qed.
Lemma xE_orth' : meq 2 2 (mul Qs 2 xE (adj Qs xE)) (one Qs).
Proof. intros i j Hi Hj. cases2 i j Hi Hj; apply Qc_is_canon; vm_compute; reflexivity. Qed.
Lemma zero_at_ok M i j : zero_at M i j = true -> M i j = 0%Qc.
Proof. apply Qc_eq_bool_correct. Qed.

Lemma xK_hegv n : hegv_right Qs xK n.
Proof.
  intros A B w X _ H. cbn [hegv xK] in H.
  destruct n as [|[|[|n]]]; try discriminate. destruct B; [discriminate|].
  set (D := mul Qs 2 (adj Qs xE) (mul Qs 2 A xE)) in H.
  destruct (zero_at D 0 1) eqn:E1; [|discriminate]. destruct (zero_at D 1 0) eqn:E2; [|discriminate].
  apply zero_at_ok in E1, E2. injection H as <- <-. cbn [opt].
  assert (HD : meq 2 2 D (diag Qs (fun i => D i i))).
  { intros i j Hi Hj. unfold diag. cases2 i j Hi Hj; try reflexivity; assumption. }
  split.
  - rewrite <- HD. unfold D. rewrite (mul_1_l Qs Qs_laws). rewrite !(mulA Qs Qs_laws). rewrite xE_orth'.
    rewrite (mul_1_l Qs Qs_laws). reflexivity.
  - unfold orthonormal_in, form. rewrite (mul_1_l Qs Qs_laws). exact xE_orth.
Qed.
Lemma xK_order n : order_right xK n.
Proof. intros t w. split; cbn [order xK]; auto. Qed.

Lemma xK_gesvd n : gesvd_right Qs xK n.
Proof.
  intros M U s Vt H. cbn [gesvd xK] in H.
  destruct (Nat.eqb_spec n 2) as [->|_]; [|discriminate]. cbn [andb] in H.
  destruct (zero_at _ 0 0) eqn:E1; [|discriminate]. destruct (zero_at _ 0 1) eqn:E2; [|discriminate].
  destruct (zero_at _ 1 0) eqn:E3; [|discriminate]. destruct (zero_at _ 1 1) eqn:E4; [|discriminate].
  apply zero_at_ok in E1, E2, E3, E4. cbn [andb] in H. injection H as <- <- <-.
  assert (HM : meq 2 2 M xR).
  { intros i j Hi Hj. assert (Z : forall a b : Qc, (a - b = 0)%Qc -> a = b).
    { intros a b Hab. replace a with ((a - b) + b)%Qc by ring. rewrite Hab. ring. }
    cases2 i j Hi Hj; apply Z; assumption. }
  split; [rewrite HM|]; repeat split; try (intros i j Hi Hj; cases2 i j Hi Hj; apply Qc_is_canon; vm_compute; reflexivity).
Qed.
Lemma xK_lsolve n : lsolve_right Qs xK n.
Proof.
  intros A B X H. cbn [lsolve xK] in H.
  destruct (Nat.eqb_spec n 2) as [->|_]; [|discriminate]. cbn [andb] in H.
  destruct (Qc_eq_bool _ _) eqn:E; [discriminate|]. cbn [negb] in H. injection H as <-.
  set (det := Qcminus (Qcmult (A 0 0) (A 1 1)) (Qcmult (A 0 1) (A 1 0))) in *.
  assert (Hd : det <> 0%Qc).
  { intros E0. rewrite E0 in E. revert E. vm_compute. discriminate. }
  split.
  - exists (fun i j => match i, j with 0, 0 => Qcdiv (A 1 1) det | 0, _ => Qcdiv (Qcopp (A 0 1)) det
                        | _, 0 => Qcdiv (Qcopp (A 1 0)) det | _, _ => Qcdiv (A 0 0) det end).
    split; intros i j Hi Hj; cases2 i j Hi Hj; unfold mul, one, det in *; cbn; field; exact Hd.
  - intros i j Hi Hj. unfold mul, det in *. cases2 i j Hi Hj; cbn; field; exact Hd.
Qed.
Lemma xK_bortho n : bortho_right Qs xK n None.
Proof.
  intros X Y H. cbn [bortho xK] in H. destruct n as [|[|[|n]]]; try discriminate.
  destruct (zero_at _ 1 0) eqn:E; [|discriminate]. apply zero_at_ok in E. injection H as <-. split.
  - unfold orthonormal_in, form. cbn [opt]. rewrite (mul_1_l Qs Qs_laws). exact xE_orth.
  - exists (mul Qs 2 (adj Qs xE) X). split.
    + intros i j Hi Hj Hij. cases2 i j Hi Hj; try lia. exact E.
    + rewrite (mulA Qs Qs_laws). rewrite xE_orth'. rewrite (mul_1_l Qs Qs_laws). reflexivity.
Qed.

Lemma x_herm : hermitian Qs 3 xA.
Proof.
  intros i j Hi Hj. destruct (lt3 i Hi) as [->|[->| ->]]; destruct (lt3 j Hj) as [->|[->| ->]];
    apply Qc_is_canon; vm_compute; reflexivity.
Qed.
Lemma x_H : holds_upper 2 xH (form Qs 3 xV xA xV).
Proof.
  intros i j Hj Hi. assert (Hi' : i < 2) by lia. cases2 i j Hi' Hj; try lia; apply Qc_is_canon; vm_compute; reflexivity.
Qed.
Lemma x_V : gram Qs 3 2 xV (one Qs).
Proof. intros i j Hi Hj. cases2 i j Hi Hj; apply Qc_is_canon; vm_compute; reflexivity. Qed.
Lemma x_F : factored Qs 3 2 xA xV xV (q 9) xV xR.
Proof.
  intros i j Hi Hj. destruct (lt3 i Hi) as [->|[->| ->]]; destruct (lt2 j Hj) as [->| ->];
    apply Qc_is_canon; vm_compute; reflexivity.
Qed.

(** Rayleigh-Ritz for the largest: the pairs found satisfy the claim. *)
Example C50_case_rayleigh_ritz :
  exists w X, solve_H_RR Qs xK Smallest 2 xH None = Some (w, X) /\ this (w 0) = 0%Q /\ this (w 1) = 25%Q /\
  meq 2 2 (form Qs 3 xV xA (mul Qs 2 xV X)) (mul Qs 2 (form Qs 3 xV (one Qs) (mul Qs 2 xV X)) (diag Qs w)).
Proof.
  destruct (solve_H_RR Qs xK Smallest 2 xH None) as [[w X]|] eqn:E.
  - exists w, X. split; [reflexivity|].
    assert (F : this (w 0) = 0%Q /\ this (w 1) = 25%Q).
    { assert (G : match solve_H_RR Qs xK Smallest 2 xH None with Some (w, _) => (this (w 0), this (w 1)) | None => (1%Q, 1%Q) end = (0%Q, 25%Q))
        by (vm_compute; reflexivity).
      rewrite E in G. injection G as G1 G2. auto. }
    destruct F as [F1 F2]. do 2 (split; [assumption|]).
    apply (C50_rayleigh_ritz Qs Qs_laws xK Smallest 3 2 xA (one Qs) xV xH None w X x_herm x_H); auto using xK_hegv, xK_order.
    cbn [opt]. unfold form. rewrite (mul_1_l Qs Qs_laws). symmetry. exact x_V.
  - exfalso. assert (G : match solve_H_RR Qs xK Smallest 2 xH None with Some _ => true | None => false end = true)
      by (vm_compute; reflexivity). rewrite E in G. discriminate.
Qed.

(** Refined: the vector of the value 0, at distance 9, comes before the one of 25, at distance 16. *)
Example C50_case_refined :
  exists e, solve_H_Ref Qs xK ClosestAbs 2 xH xR None None = Some e /\
  map (fun i => (this (hSVals e i), this (hVals e i))) [0; 1] = [(9, 0); (16, 25)]%Q /\
  gram Qs 3 2 (shifted Qs 3 xA (mul Qs 2 xV (hVecs e)) (q 9)) (diag Qs (fun i => Qcmult (hSVals e i) (hSVals e i))).
Proof.
  destruct (solve_H_Ref Qs xK ClosestAbs 2 xH xR None None) as [e|] eqn:E.
  - exists e. split; [reflexivity|]. split.
    + assert (G : match solve_H_Ref Qs xK ClosestAbs 2 xH xR None None with
                  | Some e => map (fun i => (this (hSVals e i), this (hVals e i))) [0; 1] | None => [] end = [(9, 0); (16, 25)]%Q)
        by (vm_compute; reflexivity).
      rewrite E in G. exact G.
    + assert (P1 : potrf_right Qs xK 2) by (intros G C HC; discriminate HC).
      assert (P2 : rsolve_right Qs xK 2) by (intros A B X HC; discriminate HC).
      destruct (C50_refined Qs Qs_laws xK ClosestAbs 3 2 xA xV xH (q 9) xV xR None None e x_herm x_H x_V x_V x_F
        (xK_gesvd 2) P1 (xK_lsolve 2) P2 E) as (_ & _ & F & _).
      exact F.
  - exfalso. assert (G : match solve_H_Ref Qs xK ClosestAbs 2 xH xR None None with Some _ => true | None => false end = true)
      by (vm_compute; reflexivity). rewrite E in G. discriminate.
Qed.

(** Harmonic: the same order, by the inverses -1/9 and 1/16. *)
Example C50_case_harmonic :
  exists e, solve_H_Harm Qs xK ClosestAbs 2 xH (one Qs) xR None None (fun _ => q 0) = Some e /\
  map (fun i => this (hVals e i)) [0; 1] = [0; 25]%Q /\
  gram Qs 3 2 (mul Qs 2 xV (hVecs e)) (one Qs).
Proof.
  destruct (solve_H_Harm Qs xK ClosestAbs 2 xH (one Qs) xR None None (fun _ => q 0)) as [e|] eqn:E.
  - exists e. split; [reflexivity|]. split.
    + assert (G : match solve_H_Harm Qs xK ClosestAbs 2 xH (one Qs) xR None None (fun _ => q 0) with
                  | Some e => map (fun i => this (hVals e i)) [0; 1] | None => [] end = [0; 25]%Q)
        by (vm_compute; reflexivity).
      rewrite E in G. exact G.
    + assert (P : meq 2 2 (one Qs) (mul Qs 3 (adj Qs xV) xV)).
      { intros i j Hi Hj. cases2 i j Hi Hj; apply Qc_is_canon; vm_compute; reflexivity. }
      destruct (C50_harmonic Qs Qs_laws xK ClosestAbs 3 2 xA xV xH (q 9) xV xR (one Qs) None None (fun _ => q 0) e x_herm eq_refl
        x_H x_V x_V x_F P (xK_hegv 2) (xK_order 2) (xK_lsolve 2) (xK_bortho 2) E) as (F & _).
      exact F.
  - exfalso. assert (G : match solve_H_Harm Qs xK ClosestAbs 2 xH (one Qs) xR None None (fun _ => q 0) with Some _ => true | None => false end = true)
      by (vm_compute; reflexivity). rewrite E in G. discriminate.
Qed.

(** Two vectors too close to be told apart by their singular values are rotated. *)
Definition xp : prep Qc := Prep (fun i => match i with 0 => q 16 | _ => q 9 end) (one Qs) (fun _ _ => q 0) 0.
Example C50_case_prepared :
  exists p, prepare_vecs Qs xK true (fun _ _ => false) (fun _ => true) Smallest 2 0 1 xH xp = Some p /\
  map (fun i => (this (pVals p i), this (pVecs p i 0), this (pRot p i 0))) [0; 1]
    = [(0, (3 # 5), (3 # 5)); (25, (-4 # 5), (-4 # 5))]%Q /\
  consistent Qs 2 (form Qs 3 xV xA xV) (one Qs) p /\ arb p = 2.
Proof.
  set (c := prepare_vecs Qs xK true (fun _ _ => false) (fun _ => true) Smallest 2 0 1 xH xp).
  destruct c as [p|] eqn:E.
  - exists p. split; [reflexivity|].
    assert (G : match c with Some p => (map (fun i => (this (pVals p i), this (pVecs p i 0), this (pRot p i 0))) [0; 1], arb p) | None => ([], 0) end
              = ([(0, (3 # 5), (3 # 5)); (25, (-4 # 5), (-4 # 5))]%Q, 2)) by (vm_compute; reflexivity).
    rewrite E in G. injection G as G1 G2 G3 G4 G5 G6 G7. split; [cbn; congruence|]. split; [|exact G7].
    destruct (C50_prepared_vectors Qs Qs_laws xK (fun _ _ => false) (fun _ => true) Smallest 2 0 1 xH (form Qs 3 xV xA xV)
             (one Qs) (one Qs) xp p) as (F & _); [| | | | | | | |exact E|exact F].
    + apply (form_herm Qs Qs_laws). exact x_herm.
    + exact x_H.
    + auto using xK_hegv, xK_order.
    + unfold orthonormal_in, form. rewrite (adj1 Qs Qs_laws). rewrite !(mul_1_l Qs Qs_laws). reflexivity.
    + cbn. lia.
    + lia.
    + lia.
    + split; [|split]; intros i; [intros j Hi Hj; cases2 i j Hi Hj|intros j Hi Hj; cases2 i j Hi Hj|intros Hi; destruct (lt2 i Hi) as [->| ->]];
        apply Qc_is_canon; vm_compute; reflexivity.
  - exfalso. assert (G : match c with Some _ => true | None => false end = true) by (vm_compute; reflexivity).
    rewrite E in G. discriminate.
Qed.

(** The third column joins the factorization; it is already orthogonal. *)
Definition x_ortho : ortho Qc := fun N Q R b1 b2 =>
  if (N =? 3) && (b1 =? 2) && (b2 =? 3) && zero_at Q 0 2 && zero_at Q 1 2
     && zero_at Q 2 0 && zero_at Q 2 1 && negb (zero_at Q 2 2)
  then Some ((fun r c => if c =? 2 then (if r =? 2 then q 1 else q 0) else Q r c),
             (fun r c => if c =? 2 then (if r =? 2 then Q 2 2 else q 0) else R r c), 3)
  else None.
Lemma x_ortho_right : ortho_right Qs 3 x_ortho.
Proof.
  intros Q R b1 b2 Q' R' m H. unfold x_ortho in H. cbn [Nat.eqb andb] in H.
  destruct (Nat.eqb_spec b1 2) as [->|_]; [|discriminate]. destruct (Nat.eqb_spec b2 3) as [->|_]; [|discriminate].
  destruct (zero_at Q 0 2) eqn:E1; [|discriminate]. destruct (zero_at Q 1 2) eqn:E2; [|discriminate].
  destruct (zero_at Q 2 0) eqn:E3; [|discriminate]. destruct (zero_at Q 2 1) eqn:E4; [|discriminate].
  destruct (zero_at Q 2 2) eqn:E5; [discriminate|]. apply zero_at_ok in E1, E2, E3, E4.
  cbn [andb negb] in H. injection H as <- <- <-. split; [lia|]. split.
  { intros r c Hc. destruct (Nat.eqb_spec c 2); [lia|]. auto. }
  split.
  { intros r c Hr Hc. assert (c = 2) by lia. subst c. destruct (lt3 r Hr) as [->|[->| ->]]; unfold mul; cbn.
    - rewrite E1. change (q 0) with 0%Qc. ring.
    - rewrite E2. change (q 0) with 0%Qc. ring.
    - rewrite E3, E4. change (q 0) with 0%Qc. replace (q 1) with 1%Qc by (apply Qc_is_canon; reflexivity). ring. }
  split.
  { intros r c Hc Hr. assert (c = 2) by lia. subst c. lia. }
  intros HG i j Hi Hj.
  assert (G00 := HG 0 0 ltac:(lia) ltac:(lia)). assert (G01 := HG 0 1 ltac:(lia) ltac:(lia)).
  assert (G10 := HG 1 0 ltac:(lia) ltac:(lia)). assert (G11 := HG 1 1 ltac:(lia) ltac:(lia)).
  unfold mul, adj, one in *. cbn in *.
  destruct (lt3 i Hi) as [->|[->| ->]]; destruct (lt3 j Hj) as [->|[->| ->]]; cbn; try assumption;
    rewrite ?E3, ?E4; change (q 0) with 0%Qc; replace (q 1) with 1%Qc by (apply Qc_is_canon; reflexivity); ring.
Qed.
Definition xI3 := tab [[1;0;0];[0;1;0];[0;0;1]]%Z.
Example C50_case_update_Q :
  exists Q R, update_Q Qs x_ortho 3 xI3 (mul Qs 3 xA xI3) xV xR (q 9) 2 1 2 = Some (Q, R, 3) /\
  this (R 2 2) = (-4)%Q /\ factored Qs 3 3 xA xI3 xI3 (q 9) Q R.
Proof.
  set (c := update_Q Qs x_ortho 3 xI3 (mul Qs 3 xA xI3) xV xR (q 9) 2 1 2).
  destruct c as [[[Q R] m]|] eqn:E.
  - assert (G : match c with Some (_, R, m) => (this (R 2 2), m) | None => (0%Q, 0) end = ((-4)%Q, 3)) by (vm_compute; reflexivity).
    rewrite E in G. injection G as G1 ->. exists Q, R. split; [reflexivity|]. split; [exact G1|].
    destruct (C50_update_Q Qs Qs_laws x_ortho 3 xA xI3 xI3 (mul Qs 3 xA xI3) xV xR (q 9) 2 1 Q R 3) as (F & _);
      [| | | | |exact E|exact F].
    + reflexivity.
    + exact x_ortho_right.
    + lia.
    + intros i j Hi Hj. destruct (lt3 i Hi) as [->|[->| ->]]; destruct (lt2 j Hj) as [->| ->];
        apply Qc_is_canon; vm_compute; reflexivity.
    + exact x_V.
  - exfalso. assert (G : match c with Some _ => true | None => false end = true) by (vm_compute; reflexivity).
    rewrite E in G. discriminate.
Qed.

(** A guess that enters after a restart: the third column of the identity, tau = 9. *)
Example C50_guesses_witness : exists Q R,
  guess_Q Qs x_ortho 3 xI3 (mul Qs 3 xA xI3) xV xR (q 9) 2 1 = Some (Q, R) /\
  factored Qs 3 3 xA xI3 xI3 (q 9) Q R /\ gram Qs 3 3 Q (one Qs).
Proof.
  destruct (guess_Q Qs x_ortho 3 xI3 (mul Qs 3 xA xI3) xV xR (q 9) 2 1) as [[Q R]|] eqn:E.
  - exists Q, R. split; [reflexivity|].
    apply (C50_guesses Qs Qs_laws x_ortho 3 xA xI3 (mul Qs 3 xA xI3) xV xR (q 9) 2 1); auto.
    + intros i j _ _. reflexivity.
    + exact x_ortho_right.
    + intros i j Hi Hj. destruct (lt3 i Hi) as [->|[->| ->]]; destruct (lt2 j Hj) as [->| ->];
        apply Qc_is_canon; vm_compute; reflexivity.
    + exact x_V.
  - exfalso. assert (G : match guess_Q Qs x_ortho 3 xI3 (mul Qs 3 xA xI3) xV xR (q 9) 2 1 with
                         | Some _ => true | None => false end = true) by (vm_compute; reflexivity).
    rewrite E in G. discriminate.
Qed.

(** The refined case over the reals, A = diag(4, 1), tau = 0. *)
Definition rA : nat -> nat -> R := fun i j => if i =? j then (match i with 0 => 4%R | _ => 1%R end) else 0%R.
Definition is_rA (M : nat -> nat -> R) : bool :=
  let e i j := if Req_EM_T (M i j) (rA i j) then true else false in e 0 0 && e 0 1 && e 1 0 && e 1 1.
Definition rK : kernels R := Kernels (fun _ _ _ => None)
  (fun n M => if (n =? 2) && is_rA M then Some (one Rs, (fun i => match i with 0 => 4%R | _ => 1%R end), one Rs) else None)
  (fun _ _ => None) (fun _ _ _ => None) (fun _ _ _ => None) (fun _ _ _ => None) (fun _ _ _ i => i).

Example C50_case_minimal :
  exists e, solve_H_Ref Rs rK ClosestAbs 2 rA rA None None = Some e /\ hSVals e 0 = 1%R /\
  forall c, let x := fun r => sum Rs 2 (fun l => (one Rs r l * c l)%R) in
    (hSVals e 0%nat * hSVals e 0%nat * ip 2 x x <= ip 2 (residual_at 2 rA 0 x) (residual_at 2 rA 0 x))%R.
Proof.
  assert (T : is_rA rA = true).
  { unfold is_rA. repeat (destruct (Req_EM_T _ _) as [_|N]; [|exfalso; apply N; reflexivity]). reflexivity. }
  destruct (solve_H_Ref Rs rK ClosestAbs 2 rA rA None None) as [e|] eqn:Ee.
  2:{ exfalso. unfold solve_H_Ref in Ee. cbn [bind gesvd rK snd fst] in Ee. rewrite T in Ee. discriminate. }
  exists e. split; [reflexivity|]. split.
  { unfold solve_H_Ref in Ee. cbn [bind gesvd rK snd fst] in Ee. rewrite T in Ee.
    cbn [Nat.eqb andb bind fst] in Ee. injection Ee as <-. reflexivity. }
  intros c x.
  assert (P1 : potrf_right Rs rK 2) by (intros G C HC; discriminate HC).
  assert (P2 : rsolve_right Rs rK 2) by (intros A B X HC; discriminate HC).
  assert (P3 : lsolve_right Rs rK 2) by (intros A B X HC; discriminate HC).
  assert (P4 : gesvd_right Rs rK 2).
  { intros M U s Vt HM. cbn [gesvd rK Nat.eqb andb] in HM. destruct (is_rA M) eqn:E; [|discriminate].
    injection HM as <- <- <-. unfold is_rA in E.
    destruct (Req_EM_T (M 0 0) _) as [E00|]; [|discriminate]. destruct (Req_EM_T (M 0 1) _) as [E01|]; [|discriminate].
    destruct (Req_EM_T (M 1 0) _) as [E10|]; [|discriminate]. destruct (Req_EM_T (M 1 1) _) as [E11|]; [|discriminate].
    repeat split; intros i j Hi Hj; cases2 i j Hi Hj; rewrite ?E00, ?E01, ?E10, ?E11; unfold mul, adj, one, diag, rA; cbn; lra. }
  destruct (C50_refined_minimal rK ClosestAbs 2 2 rA (one Rs) rA 0%R (one Rs) rA None None e) with (i := 0) as (_ & _ & F);
    auto.
  - intros i j Hi Hj. cases2 i j Hi Hj; reflexivity.
  - intros i j Hj Hi. assert (Hi' : i < 2) by lia. cases2 i j Hi' Hj; try lia; unfold form, mul, adj, one, rA; cbn; lra.
  - intros i j Hi Hj. cases2 i j Hi Hj; unfold mul, adj, one; cbn; lra.
  - intros i j Hi Hj. cases2 i j Hi Hj; unfold mul, adj, one; cbn; lra.
  - intros i j Hi Hj. cases2 i j Hi Hj; unfold mul, msub, scale, one, rA; cbn; lra.
  - intros M U s Vt HM i j Hi Hj. cbn [gesvd rK Nat.eqb andb] in HM. destruct (is_rA M); [|discriminate].
    injection HM as <- <- <-. destruct i as [|i]; destruct j as [|j]; try lia; lra.
  - apply F. intros j Hj. lia.
Qed.

(** A kernel that always answers, nothing ever separated: the preparation of five vectors ends. *)
Example C50_case_ends : exists p', prepare_vecs Qs (Kernels (fun _ A _ => Some ((fun i => A i i), one Qs)) (fun _ _ => None)
  (fun _ _ => None) (fun _ _ _ => None) (fun _ _ _ => None) (fun _ _ _ => None) (fun _ _ _ i => i))
  true (fun _ _ => false) (fun _ => true) ClosestAbs 5 0 2 xA (Prep (fun _ => q 0) (one Qs) (one Qs) 0) = Some p'.
Proof. apply C50_preparation_ends; [discriminate|lia]. Qed.

(** Diagonal matrices of order two over the reals: A with 2 and 5, tau = 1. *)
Definition diag2 (A : nat -> nat -> R) : bool :=
  (if Req_EM_T (A 0 1) 0 then true else false) && (if Req_EM_T (A 1 0) 0 then true else false).
Definition dK : kernels R :=
  Kernels
    (fun n A B => match n, B with
     | 2, None => if diag2 A then if Rle_dec (A 0 0) (A 1 1) then Some ((fun i => A i i), one Rs) else None else None
     | _, _ => None end)
    (fun _ _ => None) (fun _ _ => None)
    (fun n A X => match n with
     | 2 => if diag2 A then if Req_EM_T (A 0 0) 0 then None else if Req_EM_T (A 1 1) 0 then None
            else Some (fun i j => (X i j / A i i)%R) else None
     | _ => None end)
    (fun _ _ _ => None)
    (fun n X G => match n, G with 2, None => if diag2 X then Some (one Rs) else None | _, _ => None end)
    (fun _ n w i => match n with
     | 2 => if Rle_dec (Rabs (w 1)) (Rabs (w 0)) then i else match i with 0 => 1 | 1 => 0 | _ => i end
     | _ => i end).
Definition d2 (a b : R) : nat -> nat -> R := fun i j =>
  match i, j with 0, 0 => a | 1, 1 => b | _, _ => 0%R end.

Lemma diag2_spec A : diag2 A = true -> A 0 1 = 0%R /\ A 1 0 = 0%R.
Proof.
  unfold diag2. destruct (Req_EM_T (A 0 1) 0), (Req_EM_T (A 1 0) 0); cbn; try discriminate. auto.
Qed.

Lemma diag2_d2 A : A 0 1 = 0%R -> A 1 0 = 0%R -> diag2 A = true.
Proof.
  intros H1 H2. unfold diag2. destruct (Req_EM_T (A 0 1) 0), (Req_EM_T (A 1 0) 0); try reflexivity; contradiction.
Qed.

Ltac entries2 := intros i j Hi Hj; cases2 i j Hi Hj;
  cbv [mul sum adj one diag msub scale form opt Rs kmul kadd ksub kconj k0 k1 kopp d2 Nat.eqb].

Lemma dK_hegv : hegv_right Rs dK 2.
Proof.
  intros A B w X _ H. cbn [hegv dK] in H. destruct B; [discriminate|]. destruct (diag2 A) eqn:D; [|discriminate].
  apply diag2_spec in D as [D1 D2]. destruct (Rle_dec _ _); [|discriminate]. injection H as <- <-. split.
  - entries2; rewrite ?D1, ?D2; ring.
  - unfold orthonormal_in. entries2; ring.
Qed.
Lemma dK_ascending : ascending dK 2.
Proof.
  intros A B w X H i j Hij Hj. cbn [hegv dK] in H. destruct B; [discriminate|]. destruct (diag2 A); [|discriminate].
  destruct (Rle_dec _ _); [|discriminate]. injection H as <- <-.
  replace i with 0 by lia. replace j with 1 by lia. assumption.
Qed.
Lemma dK_sorts : sorts_abs dK 2.
Proof.
  intros w i j Hij Hj. replace i with 0 by lia. replace j with 1 by lia. cbn [order dK].
  destruct (Rle_dec _ _); lra.
Qed.
Lemma dK_order : order_right dK 2.
Proof.
  intros t w. cbn [order dK]. destruct (Rle_dec _ _); split; intros; try lia.
  - destruct i as [|[|]]; lia.
  - destruct i as [|[|]], j as [|[|]]; lia.
Qed.
Lemma dK_lsolve : lsolve_right Rs dK 2.
Proof.
  intros A B X H. cbn [lsolve dK] in H. destruct (diag2 A) eqn:D; [|discriminate].
  apply diag2_spec in D as [D1 D2]. destruct (Req_EM_T _ _) as [|N0]; [discriminate|]. destruct (Req_EM_T _ _) as [|N1]; [discriminate|].
  injection H as <-. split.
  - exists (d2 (/ A 0 0) (/ A 1 1)). split; entries2; rewrite ?D1, ?D2; field; auto.
  - entries2; rewrite ?D1, ?D2; field; auto.
Qed.
Lemma dK_bortho : bortho_right Rs dK 2 None.
Proof.
  intros X Y H. cbn [bortho dK] in H. destruct (diag2 X) eqn:D; [|discriminate]. injection H as <-.
  apply diag2_spec in D as [D1 D2]. split.
  - unfold orthonormal_in. entries2; ring.
  - exists X. split.
    + intros i j Hi Hj Hij. cases2 i j Hi Hj; try lia. exact D2.
    + entries2; rewrite ?D1, ?D2; ring.
Qed.

Lemma one01 : one Rs 0 1 = 0%R. Proof. reflexivity. Qed.
Lemma one10 : one Rs 1 0 = 0%R. Proof. reflexivity. Qed.

Example C50_case_harmonic_order :
  exists e, solve_H_Harm Rs dK ClosestGeq 2 (d2 2 5) (one Rs) (d2 1 4) None None (fun _ => 0%R) = Some e /\
  hVals e 0 = 2%R /\ hVals e 1 = 5%R /\
  exists Z mu,
    meq 2 2 Z (mul Rs 2 (d2 1 4) (mul Rs 2 Z (diag Rs mu))) /\
    forall i j, i < j -> j < 2 -> mu i <> 0%R -> mu j <> 0%R ->
      (1 < 1 + / mu j -> 1 < 1 + / mu i <= 1 + / mu j)%R.
Proof.
  destruct (solve_H_Harm Rs dK ClosestGeq 2 (d2 2 5) (one Rs) (d2 1 4) None None (fun _ => 0%R)) as [e|] eqn:E.
  - exists e. split; [reflexivity|].
    assert (A1 : hermitian Rs 2 (d2 2 5)) by (unfold hermitian; entries2; ring).
    assert (A2 : holds_upper 2 (d2 2 5) (form Rs 2 (one Rs) (d2 2 5) (one Rs))).
    { intros i j Hj Hij. assert (Hi : i < 2) by lia. cases2 i j Hi Hj; cbv [mul sum adj one form Rs kmul kadd kconj k0 k1 d2 Nat.eqb]; ring. }
    assert (A3 : gram Rs 2 2 (one Rs) (opt Rs None)) by (unfold gram; entries2; ring).
    assert (A4 : factored Rs 2 2 (d2 2 5) (one Rs) (one Rs) 1%R (one Rs) (d2 1 4)) by (unfold factored; entries2; ring).
    assert (A5 : meq 2 2 (one Rs) (mul Rs 2 (adj Rs (one Rs)) (one Rs))) by (entries2; ring).
    destruct (C50_harmonic_order dK ClosestGeq 2 2 (d2 2 5) (one Rs) (d2 2 5) 1%R (one Rs) (d2 1 4) (one Rs) None None (fun _ => 0%R) e
      A1 A2 A3 A3 A4 A5 dK_hegv dK_order dK_lsolve dK_bortho dK_ascending dK_sorts E) as (Z & T & mu & _ & _ & P & O).
    enough (G : hVals e 0 = 2%R /\ hVals e 1 = 5%R).
    { destruct G as [G1 G2]. split; [exact G1|]. split; [exact G2|]. exists Z, mu. split; [|exact O].
      intros i j Hi Hj. generalize (P i j Hi Hj). cases2 i j Hi Hj;
      cbv [mul sum adj one diag msub scale shifted Rs kmul kadd ksub kconj k0 k1 d2 Nat.eqb]; lra. }
    clear P O. clear A1 A2 A3 A4 A5. assert (E' := E). clear E.
    unfold solve_H_Harm in E'. cbn [harmonic_target lsolve dK bind] in E'.
    rewrite (diag2_d2 (adj Rs (d2 1 4))) in E' by reflexivity.
    destruct (Req_EM_T (adj Rs (d2 1 4) 0 0) 0); [discriminate|]. destruct (Req_EM_T (adj Rs (d2 1 4) 1 1) 0); [discriminate|].
    cbn [bind] in E'. match type of E' with context [solve_H_RR _ _ _ _ ?M _] => destruct (solve_H_RR Rs dK Largest 2 M None) as [[w U]|]; [|discriminate] end.
    cbn [bind snd] in E'. destruct (diag2 (d2 1 4)); [|discriminate].
    destruct (Req_EM_T _ _); [discriminate|]. destruct (Req_EM_T _ _); [discriminate|]. cbn [bind bortho dK] in E'.
    match type of E' with context [diag2 ?M] => destruct (diag2 M); [|discriminate] end.
    cbn [bind] in E'. injection E' as <-. cbn [hVals].
    split; (unfold rayleigh; cbv [mul sum adj one upper d2 Rs kmul kadd kconj k0 k1 Nat.eqb Nat.leb]; ring).
  - exfalso.
    unfold solve_H_Harm in E. cbn [harmonic_target lsolve dK bind] in E.
    rewrite (diag2_d2 (adj Rs (d2 1 4))) in E by reflexivity.
    assert (Z1 : adj Rs (d2 1 4) 0 0 = 1%R) by reflexivity. assert (Z2 : adj Rs (d2 1 4) 1 1 = 4%R) by reflexivity.
    destruct (Req_EM_T (adj Rs (d2 1 4) 0 0) 0); [lra|]. destruct (Req_EM_T (adj Rs (d2 1 4) 1 1) 0); [lra|].
    cbn [bind] in E. unfold solve_H_RR in E. cbn [hegv dK] in E.
    match type of E with context [diag2 ?M] => rewrite (diag2_d2 M) in E end.
    2, 3: cbv [upper Nat.leb Nat.ltb adj one Rs kopp kmul kconj k0 k1 Nat.eqb d2]; lra.
    match type of E with context [Rle_dec ?a ?b] => destruct (Rle_dec a b) as [|C] end.
    2: { apply C. cbv [upper Nat.leb Nat.ltb adj one Rs kopp kconj k0 k1 Nat.eqb d2]. lra. }
    cbn [bind fst snd] in E. rewrite (diag2_d2 (d2 1 4)) in E by reflexivity.
    destruct (Req_EM_T (d2 1 4 0 0) 0); [contradiction|]. destruct (Req_EM_T (d2 1 4 1 1) 0); [contradiction|].
    cbn [bind bortho dK] in E.
    match type of E with context [diag2 ?M] => rewrite (diag2_d2 M) in E end.
    2, 3: rewrite ?one01, ?one10; unfold Rdiv; apply Rmult_0_l.
    discriminate.
Qed.
