(** C57: the Gram matrix of device builds; the exception of the locked block. *)
From Coq Require Import List Arith Bool Lia ZArith QArith Qcanon Field.
From Verif Require Import Base Values ProjModel SpecProj MatAlg PropsProj PropsQmr4 RestartModel
  VwxrModel SpecVwxr MoveModel SpecMove PropsMove5 GrammModel.
Import ListNotations.
Local Open Scope nat_scope.

Section Zero.
Context {K : Type} (o : scal K) (L : laws o).
Add Field kf : (l_field o L).
Lemma mul_zero_l x : kmul o (k0 o) x = k0 o.
Proof. ring. Qed.
End Zero.

Section Gramm.
Context {K : Type} (o : scal K) (L : laws o).
Variable m : nat. Variable alpha : K. Variables X Y : nat -> nat -> K.
Hypothesis Hm : 0 < m.

Lemma gramm_ok : forall fuel x n isherm deep H, n < fuel ->
  exists H', gramm o fuel m x n alpha isherm deep X Y H = Some H' /\
    (forall i j, i < n -> j < n -> i <= j -> H' (x + i) (x + j) = gemm_entry o m alpha X Y H (x + i) (x + j)) /\
    (forall i j, H' i j = gemm_entry o m alpha X Y H i j \/ H' i j = H i j) /\
    (forall i j, ~ (x <= i < x + n /\ x <= j < x + n) -> H' i j = H i j) /\
    (isherm = 0 -> forall i j, i < n -> j < n -> H' (x + i) (x + j) = gemm_entry o m alpha X Y H (x + i) (x + j)).
Proof.
  induction fuel as [|fuel IH]; intros x n isherm deep H Hn; [lia|]. cbn [gramm].
  rewrite (proj2 (Nat.eqb_neq m 0)) by lia. cbn [orb].
  destruct (Nat.eqb_spec n 0) as [Zn|Zn].
  { exists H. split; [reflexivity|]. split; [lia|]. split; [auto|]. split; [auto|lia]. }
  cbv zeta. set (whole := (isherm =? 0) || (n <=? 2) || (deep =? 0)).
  set (LL := if whole then n else (n + 1) / 2). set (l := if whole then 0 else n / 2).
  assert (Sz : LL + l = n /\ l <= LL /\ l < n /\ LL <= l + 1 + (if whole then n else 0)).
  { subst LL l. destruct whole eqn:W; [lia|].
    assert (2 < n). { unfold whole in W. apply orb_false_iff in W as [W _]. apply orb_false_iff in W as [_ W]. apply Nat.leb_gt in W. lia. }
    pose proof (Nat.div_mod n 2 ltac:(lia)). pose proof (Nat.mod_upper_bound n 2 ltac:(lia)).
    pose proof (Nat.div_mod (n + 1) 2 ltac:(lia)). pose proof (Nat.mod_upper_bound (n + 1) 2 ltac:(lia)). lia. }
  destruct Sz as (S1 & S2 & S3 & S4).
  destruct (IH x l (deep - 1) 1 H ltac:(lia)) as (H1 & E1 & U1 & C1 & O1 & _).
  destruct (IH (x + LL) l (deep - 1) 1 H1 ltac:(lia)) as (H2 & E2 & U2 & C2 & O2 & _).
  rewrite E1. cbn [bind]. rewrite E2. cbn [bind]. eexists. split; [reflexivity|].
  assert (W0 : isherm = 0 -> l = 0 /\ LL = n).
  { intros ->. unfold l, LL, whole. cbn [Nat.eqb orb]. auto. }
  assert (GE : forall i j, H2 i j = H i j -> gemm_entry o m alpha X Y H2 i j = gemm_entry o m alpha X Y H i j)
    by (intros i j E; unfold gemm_entry; now rewrite E).
  assert (Blk : forall i j, x <= i < x + LL -> x + l <= j < x + n -> gemm_block o m x LL (x + l) LL alpha X Y H2 i j = gemm_entry o m alpha X Y H i j).
  { intros i j Hi Hj. unfold gemm_block. rewrite (proj2 (Nat.leb_le x i)), (proj2 (Nat.ltb_lt i (x + LL))), (proj2 (Nat.leb_le (x + l) j)), (proj2 (Nat.ltb_lt j (x + l + LL))) by lia.
    cbn [andb]. apply GE. rewrite O2 by lia. apply O1. lia. }
  assert (Out : forall i j, ~ (x <= i < x + LL /\ x + l <= j < x + n) -> gemm_block o m x LL (x + l) LL alpha X Y H2 i j = H2 i j).
  { intros i j Q. unfold gemm_block. destruct (Nat.leb_spec x i), (Nat.ltb_spec i (x + LL)), (Nat.leb_spec (x + l) j), (Nat.ltb_spec j (x + l + LL)); cbn [andb]; auto. lia. }
  split.
  { intros i j Hi Hj Hij. destruct (Nat.lt_ge_cases j l) as [A|A].
    - rewrite Out by lia. rewrite O2 by lia. apply U1; lia.
    - destruct (Nat.lt_ge_cases i LL) as [B|B]; [apply Blk; lia|].
      rewrite Out by lia. replace (x + i) with (x + LL + (i - LL)) by lia. replace (x + j) with (x + LL + (j - LL)) by lia.
      rewrite U2 by lia. unfold gemm_entry. now rewrite O1 by lia. }
  split.
  { intros i j. destruct (Nat.leb_spec x i), (Nat.ltb_spec i (x + LL)), (Nat.leb_spec (x + l) j), (Nat.ltb_spec j (x + n));
      try (left; apply Blk; lia); rewrite Out by lia;
      (destruct (C2 i j) as [E|E]; [|rewrite E; apply C1]);
      destruct (Nat.lt_ge_cases i (x + LL)) as [B|B]; try (rewrite O2 by lia; apply C1);
      left; rewrite E; unfold gemm_entry; now rewrite O1 by lia. }
  split.
  { intros i j Q. rewrite Out by lia. rewrite O2 by lia. apply O1. lia. }
  intros Z i j Hi Hj. destruct (W0 Z). apply Blk; lia.
Qed.
End Gramm.

(** With at least a row, the upper part is alpha H + X'Y and no other entry than those
    of the matrix changes; without rows nothing is written. *)
Theorem C57_device_gramm : forall {K} (o : scal K), laws o -> forall m n alpha (X Y H : nat -> nat -> K),
  exists H', device_gramm o m n alpha X Y H = Some H' /\
    (0 < m -> forall i j, i <= j -> j < n ->
       H' i j = kadd o (kmul o alpha (H i j)) (sum o m (fun r => kmul o (kconj o (X r i)) (Y r j)))) /\
    (forall i j, n <= i \/ n <= j -> H' i j = H i j) /\
    (m = 0 -> forall i j, H' i j = H i j).
Proof.
  intros K o L m n alpha X Y H. unfold device_gramm.
  destruct (Nat.eqb_spec m 0) as [Zm|Zm]; cbn [orb].
  { exists H. split; [reflexivity|]. split; [lia|]. auto. }
  destruct (Nat.eqb_spec n 0) as [Zn|Zn].
  { exists H. split; [reflexivity|]. split; [lia|]. auto. }
  cbv zeta. destruct (gramm_ok o m alpha X Y ltac:(lia) (S n) 0 n 1 4 (if kzero o alpha then fun _ _ => k0 o else H) ltac:(lia)) as (D & E & U & _).
  rewrite E. cbn [bind]. eexists. split; [reflexivity|]. split; [|split; [|lia]].
  - intros _ i j Hij Hj. rewrite (proj2 (Nat.ltb_lt i n)), (proj2 (Nat.ltb_lt j n)) by lia. cbn [andb].
    specialize (U i j ltac:(lia) Hj Hij). cbn [Nat.add] in U. rewrite U. unfold gemm_entry. destruct (kzero o alpha) eqn:Z; [|reflexivity].
    apply (l_zero o L) in Z. subst alpha. f_equal. now rewrite !(mul_zero_l o L).
  - intros i j Q. destruct (Nat.ltb_spec i n), (Nat.ltb_spec j n); cbn [andb]; auto; lia.
Qed.

(** Three columns of the basis, the last one locked: the entry of the locked vector and
    the first column of the basis is zero in device builds and the product of the two
    vectors in host builds. *)
Theorem C57_upper_only_refuted :
  (forall {K} (o : scal K), laws o -> forall m (X H : nat -> nat -> K), 0 < m ->
     exists D g, device_gramm o m 3 (k0 o) X X H = Some D /\
       move_VtBV o 0 2 0 1 (ifailed [CONVERGED]) D = Some g /\ g 0 1 = k0 o) /\
  (forall {K} (o : scal K), laws o -> forall m (X H : nat -> nat -> K), 0 < m ->
     exists g, move_VtBV o 0 2 0 1 (ifailed [CONVERGED]) (host_gramm o m 3 (k0 o) X X H) = Some g /\
       g 0 1 = sum o m (fun r => kmul o (kconj o (X r 2)) (X r 0))) /\
  exists X : nat -> nat -> Qc, sum Qs 1 (fun r => kmul Qs (kconj Qs (X r 2)) (X r 0)) <> k0 Qs.
Proof.
  split; [|split].
  - intros K o L m X H Hm. unfold device_gramm. rewrite (proj2 (Nat.eqb_neq m 0)) by lia. cbn [Nat.eqb orb].
    rewrite (proj2 (l_zero o L (k0 o)) eq_refl).
    destruct (Nat.eqb_spec m 0) as [Z|Z]; [lia|].
    assert (Q : exists D, gramm o 4 m 0 3 (k0 o) 1 4 X X (fun _ _ => k0 o) = Some D /\ D 2 0 = k0 o).
    { cbn [gramm]. rewrite (proj2 (Nat.eqb_neq m 0)) by lia. cbn. rewrite ?(proj2 (Nat.eqb_neq m 0)) by lia. cbn.
      eexists. split; [reflexivity|]. reflexivity. }
    destruct Q as (D & E & D0). change (S 3) with 4. rewrite E. cbn [bind]. eexists. eexists. split; [reflexivity|].
    split; [reflexivity|]. cbn. exact D0.
  - intros K o L m X H Hm. eexists. split; [reflexivity|]. cbn. unfold host_gramm, gemm_block, gemm_entry. cbn.
    rewrite (mul_zero_l o L). apply (Radd_0_l (F_R (l_field o L))).
  - exists (fun _ _ => q 1). vm_compute. discriminate.
Qed.

(** Cases. *)
Example ex_device_gramm : on_run (device_gramm Qs 2 5 (q 0) (fun r c => q (Z.of_nat (r + c + 1))) (fun r c => q (Z.of_nat (r + c + 1))) (fun _ _ => q 7))
  (fun H => Qc_eq_bool (H 1 3) (q 23) && Qc_eq_bool (H 4 0) (q 0) && Qc_eq_bool (H 5 0) (q 7)) = true.
Proof. vm_compute. reflexivity. Qed.

(** A restart on two processes with 3 and 2 rows: four vectors become one restarted, one
    previous and two to lock, of which the first is not accepted. *)
Section Case.
Context {K : Type} (o : scal K) (L : laws o).
Variable np : nat. Variable m : nat -> nat. Variable a : nat -> nat -> K.
Definition diag_form (x y : @vect K) : K := SpecVwxr.inner o np m x (fun p r => kmul o (a p r) (y p r)).
Lemma inner_local : local_form np m (SpecVwxr.inner o np m).
Proof. intros x x' y y' Hx Hy. unfold SpecVwxr.inner. apply sum_ext. intros p Hp. apply sum_ext. intros r Hr. now rewrite Hx, Hy. Qed.
Lemma diag_local : local_form np m diag_form.
Proof. intros x x' y y' Hx Hy. unfold diag_form. apply inner_local; auto. intros. now rewrite Hy. Qed.
Lemma diag_linear : linear_form o diag_form.
Proof.
  intros n x y c. unfold diag_form.
  transitivity (SpecVwxr.inner o np m x (fun p r => sum o n (fun l => kmul o ((fun p r => kmul o (a p r) (y l p r)) p r) (c l)))).
  - apply inner_local; auto. intros p r _ _. rewrite <- (sum_mull o L). apply sum_ext. intros l _.
    apply (Rmul_assoc (F_R (l_field o L))).
  - apply (inner_linear o L np m n x (fun l p r => kmul o (a p r) (y l p r)) c).
Qed.
Lemma inner_linear_form : linear_form o (SpecVwxr.inner o np m).
Proof. intros n x y c. apply (inner_linear o L np m n x y c). Qed.
End Case.

Definition exA (p r : nat) : Qc := q (Z.of_nat (p + 2 * r + 1)).
Definition exM (p : nat) : @memory Qc := fun arr c r =>
  let v := q (Z.of_nat (1 + c * c + r * (c + 2) + p)) in if arr =? 1 then (exA p r * v)%Qc else v.
Definition exm (p : nat) : nat := match p with 0 => 3 | _ => 2 end.
Definition exH (l j : nat) : Qc := q (Z.of_nat (l * l + 2 * j + 1) - 3)%Z.
Definition exvl (j : nat) : Qc := q (Z.of_nat j + 2)%Z.
Definition exfl : list flag := [UNCONVERGED; CONVERGED].
Definition exG (i j : nat) : Qc := SpecVwxr.inner Qs 2 exm (joint 1 exM i) (joint 1 exM j).
Example ex_restart_forms :
  local_form 2 exm (diag_form Qs 2 exm exA) /\ linear_form Qs (diag_form Qs 2 exm exA) /\
  local_form 2 exm (SpecVwxr.inner Qs 2 exm) /\ linear_form Qs (SpecVwxr.inner Qs 2 exm) /\
  (forall x j, diag_form Qs 2 exm exA x (fun p r => exM p 0 j r) = SpecVwxr.inner Qs 2 exm x (fun p r => exM p 1 j r)) /\
  (forall x j, SpecVwxr.inner Qs 2 exm x (fun p r => exM p 0 j r) = SpecVwxr.inner Qs 2 exm x (fun p r => exM p (mass false) j r)) /\
  (forall i j, i <= j -> j < 1 + 4 -> exG i j = SpecVwxr.inner Qs 2 exm (joint 1 exM i) (joint 1 exM j)).
Proof.
  split; [apply diag_local|]. split; [apply (diag_linear Qs Qs_laws)|]. split; [apply inner_local|].
  split; [apply (inner_linear_form Qs Qs_laws)|]. repeat split; reflexivity.
Qed.
(** idx = 1 restarted, npr = 1 previous, room for 2 more, block of size 2; 1 locked. *)
Definition exJob := restart_job (K:=Qc) false false (Some 4) (Some 4) 4 4 1 2 2 1 exH exvl.
(** The sizes of the block before and after the merge: within the block size, the pairs
    wanted and one more, and the columns the basis has. *)
Theorem C57_block_size : forall idx npr packed mB nE nc mbs nlk,
  nlk <= nc -> packed <= nc - nlk ->
  let bmax := block_max idx mB nE nc in
  let sb := block_room bmax mbs idx npr nc nlk in
  let nd := block_room bmax mbs (idx + npr + packed) npr nc nlk in
  nd <= sb <= mB /\ (nc <= nE -> sb <= nE - nc + 1) /\ sb <= idx /\
  (idx + npr + packed <= mbs -> idx + npr + packed + sb <= mbs /\ idx + npr + packed + nd <= mbs) /\
  (idx <= mB -> nc <= nE -> idx <= nE - nc + 1 -> idx + npr + (nc - nlk) + idx <= mbs -> sb = idx).
Proof. intros idx npr packed mB nE nc mbs nlk H1 H2. unfold block_max, block_room. cbv zeta. repeat split; intros; lia. Qed.
Example ex_sizes : block_room (block_max 1 2 4 1) 8 1 1 1 1 = 1 /\ block_room (block_max 1 2 4 1) 8 4 1 1 1 = 1.
Proof. split; vm_compute; reflexivity. Qed.
Definition exfin : option (@finished Qc Qc * @memory Qc) :=
  res <- update_VWXR Qs false 2 100 (fun z => z) 2 exJob exm exM ;
  f <- finish_lock Qs 2 false false 1 1 1 1 1 2 exfl [0; 1; 2; 3] [9; 9; 9; 9] [r_R res 0] [r_r res 0; r_r res 1] exvl
    (Some (aux_VtBV Qs 1 4 4 exH (r_G res) exG)) (Some (r_H res)) 3 (r_mem res 0) ;
  Some (f, r_mem res 0).
Example ex_restart_locking : on_run exfin (fun fm => let f := Datatypes.fst fm in
  (d_locked f =? 1) &&
  (* the pair not accepted is now column 2, the accepted one is locked at 1 *)
  Qc_eq_bool (d_mem f 0 2 1) (rotated Qs (exM 0) (0, 0) 4 exH 2 1) &&
  Qc_eq_bool (d_mem f 3 1 1) (rotated Qs (exM 0) (0, 0) 4 exH 3 1) &&
  negb (Qc_eq_bool (d_mem f 0 2 1) (d_mem f 3 1 1)) &&
  match d_VtBV f, d_H f with
  | Some g, Some h => negb (Qc_eq_bool (g 1 4) (q 0)) && negb (Qc_eq_bool (h 0 2) (q 0))
  | _, _ => false end) = true.
Proof. vm_compute. reflexivity. Qed.
