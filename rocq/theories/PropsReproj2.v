(** C51: the factorization of the refined extraction after a restart. *)
From Coq Require Import List Arith Bool Lia Field Setoid Morphisms Permutation.
From Verif Require Import Base ProjModel SpecProj MatAlg ExtractModel SpecExtract PropsExtract ReprojModel SpecReproj PropsReproj.
Import ListNotations.

Section Proofs.
Context {K : Type} (o : scal K) (L : laws o).
Notation mx := (@mx K).
Add Field Kfield5 : (l_field o L).

(** ** Sums and permutations *)
Lemma sum_list n f : sum o n f = fold_right (kadd o) (k0 o) (map f (seq 0 n)).
Proof.
  induction n as [|n IH]; [reflexivity|]. replace (S n) with (n + 1) by lia.
  rewrite seq_app, map_app, fold_right_app. rewrite (sum_split o L). cbn [sum seq map fold_right plus].
  rewrite Nat.add_0_r. generalize (f n). intros a. rewrite IH.
  generalize (map f (seq 0 n)). intros l. induction l as [|b l IHl]; cbn [fold_right]; [ring|].
  rewrite <- IHl. ring.
Qed.

Lemma permutes_list n p : permutes n p -> Permutation (map p (seq 0 n)) (seq 0 n).
Proof.
  intros [P1 P2]. apply NoDup_Permutation_bis.
  - assert (G : forall l, (forall x, In x l -> x < n) -> NoDup l -> NoDup (map p l)).
    { induction l as [|a l IH]; intros Hl Hn; [constructor|]. cbn [map]. inversion_clear Hn as [|? ? N1 N2].
      constructor; [|apply IH; [intros; apply Hl; right; assumption|exact N2]].
      rewrite in_map_iff. intros (x & E & Hx). apply P2 in E; [subst; contradiction| |].
      - apply Hl. right. exact Hx.
      - apply Hl. left. reflexivity. }
    apply G; [intros x Hx; apply in_seq in Hx; lia|apply seq_NoDup].
  - rewrite map_length. lia.
  - intros x Hx. apply in_map_iff in Hx. destruct Hx as (y & <- & Hy). apply in_seq in Hy. apply in_seq.
    specialize (P1 y). lia.
Qed.

Lemma sum_perm n p f : permutes n p -> sum o n (fun i => f (p i)) = sum o n f.
Proof.
  intros Hp. rewrite !sum_list. rewrite <- (map_map p f).
  assert (G : Permutation (map f (map p (seq 0 n))) (map f (seq 0 n))) by (apply Permutation_map, permutes_list, Hp).
  induction G; cbn [fold_right]; [reflexivity|rewrite IHG; reflexivity|ring|congruence].
Qed.

(** ** Triangular matrices *)
Lemma upper_inverse n R : upper_triangular o n R -> (forall k, k < n -> R k k <> k0 o) ->
  exists T, upper_triangular o n T /\ meq n n (mul o n R T) (one o).
Proof.
  induction n as [|n IH]; intros HU HD.
  { exists (one o). split; intros i j Hi; lia. }
  destruct IH as (T & TU & TI).
  { intros i j Hi Hj Hij. apply HU; lia. }
  { intros k Hk. apply HD. lia. }
  set (T' := fun i j : nat => if j =? n then (if i =? n then kdiv o (k1 o) (R n n)
               else kopp o (kdiv o (sum o n (fun l => kmul o (T i l) (R l n))) (R n n)))
             else if i =? n then k0 o else T i j).
  assert (Hd : R n n <> k0 o) by (apply HD; lia).
  exists T'. split.
  - intros i j Hi Hj Hij. unfold T'. destruct (Nat.eqb_spec j n); [lia|].
    destruct (Nat.eqb_spec i n); [reflexivity|]. apply TU; lia.
  - assert (Elt : forall i, i < n -> (i =? n) = false) by (intros i Hi; apply Nat.eqb_neq; lia).
    intros i j Hi Hj. unfold mul. cbn [sum].
    destruct (Nat.eqb_spec j n) as [->|Hjn].
    + rewrite (sum_ext o n (fun l => kmul o (R i l) (T' l n))
        (fun l => kmul o (kopp o (kdiv o (k1 o) (R n n))) (kmul o (R i l) (sum o n (fun q => kmul o (T l q) (R q n)))))).
      2:{ intros l Hl. unfold T'. rewrite Nat.eqb_refl, Elt by exact Hl. field. exact Hd. }
      rewrite (sum_mull o L).
      unfold T' at 1. rewrite Nat.eqb_refl.
      destruct (Nat.eq_dec i n) as [->|Hin].
      * rewrite (sum_zero o L n). 2:{ intros l Hl. rewrite HU by lia. ring. }
        unfold one. rewrite Nat.eqb_refl. field. exact Hd.
      * assert (E : sum o n (fun l => kmul o (R i l) (sum o n (fun q => kmul o (T l q) (R q n)))) = R i n).
        { change (mul o n R (mul o n T R) i n = R i n).
          rewrite (mul_assoc o L). assert (Hi' : i < n) by lia.
          unfold mul at 1. rewrite (sum_ext o n _ (fun l => kmul o (one o i l) (R l n))).
          - apply (mul_1_l o L n (S n)); lia.
          - intros l Hl. rewrite (TI i l Hi' Hl). reflexivity. }
        rewrite E. unfold one. destruct (Nat.eqb_spec i n); [contradiction|]. field. exact Hd.
    + rewrite (sum_ext o n (fun l => kmul o (R i l) (T' l j)) (fun l => kmul o (R i l) (T l j))).
      2:{ intros l Hl. unfold T'. destruct (Nat.eqb_spec j n); [contradiction|]. rewrite Elt by exact Hl. reflexivity. }
      unfold T' at 1. destruct (Nat.eqb_spec j n); [contradiction|]. rewrite Nat.eqb_refl.
      destruct (Nat.eq_dec i n) as [->|Hin].
      * rewrite (sum_zero o L n). 2:{ intros l Hl. rewrite HU by lia. ring. }
        unfold one. destruct (Nat.eqb_spec n j); [lia|]. ring.
      * assert (E := TI i j ltac:(lia) ltac:(lia)). unfold mul in E. rewrite E. ring.
Qed.

Lemma mul_upper n Z R r c : (forall l, c < l -> l < n -> R l c = k0 o) -> c < n ->
  mul o (c + 1) Z R r c = mul o n Z R r c.
Proof.
  intros HU Hc. unfold mul. symmetry. rewrite (sum_window o L n 0 (c + 1)).
  - reflexivity.
  - lia.
  - intros l Hl Ho. rewrite HU by lia. ring.
Qed.

(** Independent columns have a factor with a nonzero diagonal. *)
Lemma qr_regular m n V Z R : meq m n V (mul o n Z R) -> upper_triangular o n R ->
  (forall k a, k < n -> ~ (forall r, r < m -> V r k = sum o k (fun l => kmul o (V r l) (a l)))) ->
  forall k, k < n -> R k k <> k0 o.
Proof.
  intros HV HU Hind k. induction k as [k IH] using lt_wf_ind. intros Hk E.
  destruct (upper_inverse k R) as (T & TU & TI).
  { intros i j Hi Hj Hij. apply HU; lia. }
  { intros j Hj. apply IH; lia. }
  apply (Hind k (fun l => sum o k (fun j => kmul o (T l j) (R j k))) Hk).
  intros r Hr.
  assert (EV : forall c, c <= k -> V r c = sum o (if c =? k then k else c + 1) (fun l => kmul o (Z r l) (R l c))).
  { intros c Hc. rewrite (HV r c Hr) by lia. rewrite <- (mul_upper n Z R r c).
    - destruct (Nat.eqb_spec c k) as [->|]; [|reflexivity]. unfold mul. replace (k + 1) with (S k) by lia.
      cbn [sum]. rewrite E. ring.
    - intros l H1 H2. apply HU; lia.
    - lia. }
  assert (EV' : forall c, c < k -> V r c = mul o k Z R r c).
  { intros c Hc. rewrite <- (mul_upper k Z R r c).
    - rewrite EV by lia. destruct (Nat.eqb_spec c k); [lia|]. reflexivity.
    - intros l H1 H2. apply HU; lia.
    - exact Hc. }
  rewrite EV by lia. rewrite Nat.eqb_refl.
  transitivity (mul o k (mul o k Z R) (mul o k T R) r k).
  - rewrite <- (mul_assoc o L). unfold mul at 1. apply sum_ext. intros l Hl. f_equal.
    rewrite (mul_assoc o L). unfold mul at 1. rewrite (sum_ext o k _ (fun q => kmul o (one o l q) (R q k))).
    + symmetry. apply (mul_1_l o L k (S k)); lia.
    + intros q Hq. rewrite (TI l q Hl Hq). reflexivity.
  - unfold mul at 1. apply sum_ext. intros l Hl. rewrite EV' by exact Hl. reflexivity.
Qed.

(** S W has independent columns. *)
Lemma scaled_independent m n s W : gram o m n W (one o) -> (forall r, r < m -> s r <> k0 o) ->
  k1 o <> k0 o ->
  forall k a, k < n ->
  ~ (forall r, r < m -> kmul o (W r k) (s r) = sum o k (fun l => kmul o (kmul o (W r l) (s r)) (a l))).
Proof.
  intros HW Hs H10 k a Hk H.
  assert (E : forall r, r < m -> W r k = sum o k (fun l => kmul o (W r l) (a l))).
  { intros r Hr. assert (D := Hs r Hr). specialize (H r Hr).
    rewrite (sum_ext o k _ (fun l => kmul o (s r) (kmul o (W r l) (a l)))) in H by (intros; ring).
    rewrite (sum_mull o L) in H.
    transitivity (kdiv o (kmul o (W r k) (s r)) (s r)); [field; exact D|]. rewrite H. field. exact D. }
  apply H10. transitivity (mul o m (adj o W) W k k).
  { rewrite (HW k k Hk Hk). unfold one. rewrite Nat.eqb_refl. reflexivity. }
  unfold mul. rewrite (sum_ext o m _ (fun r => sum o k (fun l => kmul o (kmul o (adj o W k r) (W r l)) (a l)))).
  2:{ intros r Hr. rewrite (E r Hr) at 1. rewrite <- (sum_mull o L). apply sum_ext. intros. ring. }
  rewrite (sum_swap o L). apply (sum_zero o L). intros l Hl. rewrite (sum_mulr o L).
  change (sum o m (fun r => kmul o (adj o W k r) (W r l))) with (mul o m (adj o W) W k l).
  rewrite (HW k l) by lia. unfold one. destruct (Nat.eqb_spec k l); [lia|]. ring.
Qed.

(** ** Counting *)
Lemma count_arb_le p a n : count_arb p a n <= n.
Proof. induction n as [|n IH]; cbn [count_arb]; [lia|]. destruct (p n <? a); lia. Qed.

Lemma count_arb_ge p a n k : k <= n -> (forall i, i < k -> p i < a) -> k <= count_arb p a n.
Proof.
  revert k. induction n as [|n IH]; intros k Hk H; cbn [count_arb]; [lia|].
  destruct (Nat.eq_dec k (S n)) as [->|].
  - destruct (Nat.ltb_spec (p n) a); [|specialize (H n); lia].
    assert (n <= count_arb p a n) by (apply IH; [lia|]; intros; apply H; lia). lia.
  - assert (k <= count_arb p a n) by (apply IH; [lia|exact H]). lia.
Qed.

Lemma count_arb_rest p a n k i : (forall j, j < k -> p j < a) -> k <= i -> i < n -> p i < a -> k < count_arb p a n.
Proof.
  intros H Hk. induction n as [|n IH]; intros Hi Hp; [lia|]. cbn [count_arb].
  destruct (Nat.eq_dec i n) as [->|].
  - destruct (Nat.ltb_spec (p n) a); [|lia]. assert (k <= count_arb p a n) by (apply count_arb_ge; auto). lia.
  - assert (k < count_arb p a n) by (apply IH; auto; lia). lia.
Qed.

Lemma max_row_spec p a n : a <= max_row p a n /\ (forall i, i < n -> p i < max_row p a n) /\
  (forall b, a <= b -> (forall i, i < n -> p i < b) -> max_row p a n <= b).
Proof.
  induction n as [|n (A & B & C)]; cbn [max_row].
  - split; [lia|]. split; [intros; lia|]. intros; assumption.
  - split; [lia|]. split.
    + intros i Hi. destruct (Nat.eq_dec i n) as [->|]; [lia|]. specialize (B i). lia.
    + intros b Hb H. assert (max_row p a n <= b) by (apply C; auto). specialize (H n). lia.
Qed.

Lemma last_moved_spec perm rs c i arb : i + c = rs -> arb <= i ->
  let a := last_moved perm i c arb in
  arb <= a <= rs /\ forall k, a <= k -> i <= k -> k < rs -> perm k = k.
Proof.
  revert i arb. induction c as [|c IH]; intros i arb Hi Ha; cbn [last_moved].
  - cbv zeta. split; [lia|]. intros. lia.
  - destruct (Nat.eqb_spec (perm i) i) as [E|E].
    + destruct (IH (i + 1) arb) as [A B]; [lia|lia|]. cbv zeta in *. split; [exact A|].
      intros k H1 H2 H3. destruct (Nat.eq_dec k i) as [->|]; [exact E|]. apply B; lia.
    + destruct (IH (i + 1) (i + 1)) as [A B]; [lia|lia|]. cbv zeta in *. split; [lia|].
      intros k H1 H2 H3. apply B; lia.
Qed.

(** ** The singular vectors on the permuted columns *)
Lemma solve_H_Ref_plain (LK : kernels K) t n H R e :
  gesvd_right o LK n -> potrf_right o LK n -> lsolve_right o LK n -> rsolve_right o LK n ->
  solve_H_Ref o LK t n H R None None = Some e ->
  meq n n (mul o n R (hVecs e)) (mul o n (hU e) (diag o (hSVals e))) /\
  gram o n n (hU e) (one o) /\ unitary o n (hVecs e) /\ (forall i, i < n -> kconj o (hSVals e i) = hSVals e i).
Proof.
  intros G1 G2 G3 G4 Hs.
  destruct (solve_H_Ref_small o L LK t n H (upper o H) R None None e (meq_refl _ _ _) G1 G2 G3 G4 Hs)
    as (_ & M & U & X & hu & s & _ & _ & HSV & Hhu & HUX & HUX' & Hr & EX & EU & ES & H0).
  destruct (H0 eq_refl eq_refl) as [HMU HU].
  assert (HX : meq n n (mul o n U X) X) by (rewrite HU; apply (mul_1_l o L)).
  unfold gram in *. rewrite HX in HUX, HUX'.
  assert (HS : meq n n (mul o n R X) (mul o n hu (diag o s))).
  { rewrite <- HSV. rewrite (mulA o L). rewrite HMU. reflexivity. }
  assert (Hp := ref_order_permutes t n). set (p := ref_order t n) in *. destruct (Hp) as [P1 P2].
  rewrite EX, EU, ES. split; [|split; [|split; [split|]]].
  - intros i j Hi Hj. rewrite (mul_diag_r o L) by exact Hj.
    change (mul o n R (cols X p) i j) with (mul o n R X i (p j)). rewrite (HS i (p j)) by auto.
    rewrite (mul_diag_r o L) by auto. reflexivity.
  - intros i j Hi Hj. change (mul o n (adj o hu) hu (p i) (p j) = one o i j). rewrite Hhu by auto. apply (permutes_one o n p i j Hp Hi Hj).
  - intros i j Hi Hj. change (mul o n (adj o X) X (p i) (p j) = one o i j). rewrite HUX by auto. apply (permutes_one o n p i j Hp Hi Hj).
  - intros i j Hi Hj. rewrite <- (HUX' i j Hi Hj). unfold mul.
    apply (sum_perm n p (fun l => kmul o (adj o (adj o X) i l) (adj o X l j)) Hp).
  - intros i Hi. apply Hr. auto.
Qed.

Lemma inverse_permutes n perm inv : inverse n perm inv -> permutes n perm /\ permutes n inv.
Proof.
  intros [I1 I2]. split; split; intros i.
  - intros Hi. apply I1; exact Hi.
  - intros j Hi Hj E. destruct (I1 i Hi) as [_ <-]. destruct (I1 j Hj) as [_ <-]. congruence.
  - intros Hi. apply I2; exact Hi.
  - intros j Hi Hj E. destruct (I2 i Hi) as [_ <-]. destruct (I2 j Hj) as [_ <-]. congruence.
Qed.

(** The orthonormalization of the rotated columns: the columns known to be diagonal are. *)
Lemma rot0_qr nonneg f m (V0 W : mx) s n0 Z R1 :
  qr_right o nonneg f -> f m V0 (fun _ _ => k0 o) 0 n0 None = Some (Z, R1) ->
  gram o m n0 W (one o) -> (forall r, r < m -> s r <> k0 o) ->
  (forall r i, r < m -> i < n0 -> V0 r i = kmul o (W r i) (s r)) ->
  gram o m n0 Z (one o) /\ meq m n0 V0 (mul o n0 Z R1) /\ upper_triangular o n0 R1 /\
  (forall r c, n0 <= r -> c < n0 -> R1 r c = k0 o) /\ (forall c, c < n0 -> nonneg (R1 c c)) /\
  exists T, upper_triangular o n0 T /\ meq m n0 Z (mul o n0 V0 T).
Proof.
  intros Hf Hq HW Hs HV. destruct (Hf _ _ _ _ _ _ _ Hq) as (_ & F2 & F3 & F4 & F5 & F6).
  assert (HU : upper_triangular o n0 R1) by (intros i j Hi Hj Hij; apply F3; lia).
  assert (HZ : meq m n0 V0 (mul o n0 Z R1)).
  { intros r c Hr Hc. rewrite F2 by lia. apply mul_upper; [|exact Hc]. intros l H1 H2. apply HU; lia. }
  assert (HD : forall k, k < n0 -> R1 k k <> k0 o).
  { apply (qr_regular m n0 V0 Z R1 HZ HU). intros k a Hk HE.
    apply (scaled_independent m n0 s W HW Hs (F_1_neq_0 (l_field o L)) k a Hk).
    intros r Hr. rewrite <- HV by lia. rewrite (HE r Hr). apply sum_ext. intros l Hl. rewrite HV by lia. reflexivity. }
  split; [apply F6; intros i j Hi; lia|]. split; [exact HZ|]. split; [exact HU|].
  split; [intros r c Hr Hc; rewrite F4 by lia; reflexivity|]. split; [intros c Hc; apply F5; lia|].
  destruct (upper_inverse n0 R1 HU HD) as (T & TU & TI). exists T. split; [exact TU|].
  rewrite HZ. rewrite <- (mulA o L). rewrite TI. symmetry. apply (mul_1_r o L).
Qed.

(** R(l,c) is the product of the column l of Q with the column c. *)
Lemma qr_entry m n Z V R l c : gram o m n Z (one o) -> meq m n V (mul o n Z R) -> l < n -> c < n ->
  R l c = mul o m (adj o Z) V l c.
Proof.
  intros HZ HV Hl Hc. assert (E : meq n n R (mul o m (adj o Z) V)).
  { rewrite HV. unfold gram in HZ. rewrite (mulA o L). rewrite HZ. symmetry. apply (mul_1_l o L). }
  apply (E l c Hl Hc).
Qed.

(** ** C51: the refined extraction, when the shift has not changed. *)
Theorem C51_restart_refined (LK : kernels K) f nonneg t (implicit : bool) N n rs np ip ipBefore
    A V tau H Q R U X hV Y vals s restartPerm perm inv numArb Rot fQtQ st :
  let Vn := mul o n V Y in
  let nReg := rs - np in
  let p := fun i => restartPerm (perm i) in
  hermitian o N A ->
  (if implicit then holds_upper n H (form o N V A V) else holds_upper rs H (form o N Vn A Vn)) ->
  (** before *)
  refined_state o N n A V tau Q R U s X -> rotated o n numArb Rot X hV ->
  (forall r, r < n -> s r <> k0 o /\ nonneg (s r)) ->
  (** what is kept: the columns p i of hV in the positions perm i, then the retained vectors *)
  np <= rs -> inverse rs perm inv ->
  (forall i r, i < nReg -> r < n -> p i < n -> Y r (perm i) = hV r (p i)) ->
  (forall i j, i < nReg -> j < nReg -> p i = p j -> i = j) ->
  (forall u, u < np -> perm (nReg + u) = ip + u) ->
  (** the retained vectors are orthogonal to the first ipBefore coefficient vectors *)
  (numArb <= ipBefore -> ipBefore <= n /\ (forall i, i < nReg -> p i < ipBefore) /\
     forall c u, c < ipBefore -> u < np -> mul o n (adj o hV) Y c (ip + u) = k0 o) ->
  (** the kernels *)
  qr_right o nonneg f -> nonneg_right o nonneg ->
  gesvd_right o LK rs -> potrf_right o LK rs -> lsolve_right o LK rs -> rsolve_right o LK rs ->
  restart_refined o LK f t implicit n rs np ip ipBefore H Q R U Y vals s restartPerm perm inv numArb Rot
    None fQtQ None None = Some st ->
  holds_upper rs (rH st) (form o N Vn A Vn) /\
  (forall j, rVals st j = vals (perm j)) /\
  exists hv,
    let X' := fun r j => hv (inv r) j in
    refined_state o N rs A Vn tau (rQ st) (rR st) (rhU st) (rSVals st) X' /\
    rArb st <= rs /\
    (forall r j, r < rs -> j < rArb st -> rhVecs st r j = one o r (perm j) /\
                                      mul o rs X' (rRot st) r j = one o r (perm j)) /\
    (two_blocks o rs (rArb st) hv -> rotated o rs (rArb st) (rRot st) X' (rhVecs st)).
Proof.
  intros Vn nReg p HA HH (HF & HQ & HRX & HUU & HX & HX') (Hab & [HR1 HR2] & Hsup & HhV) Hs Hnp Hinv HY Hinj Hprev Hzero
    Hf Hnn G1 G2 G3 G4 Hst.
  destruct (inverse_permutes _ _ _ Hinv) as [Hperm Hpinv]. destruct (Hinv) as [I1 I2].
  unfold restart_refined in Hst. cbv zeta in Hst. change (perm0 restartPerm perm) with p in Hst. fold nReg in Hst.
  set (H1 := if implicit then compute_submatrix o rs n Y H else H) in *.
  set (newArb := count_arb p numArb nReg) in *.
  destruct (forallb (fun i => p i <? n) (seq 0 rs)) eqn:A1; [cbn [negb] in Hst|discriminate].
  destruct (forallb (fun i => p i <? numArb) (seq 0 newArb)) eqn:A2; [cbn [negb] in Hst|discriminate].
  set (m := max_row p numArb nReg) in *.
  destruct (f m (rot0 o Rot s p numArb newArb) (fun _ _ => k0 o) 0 nReg None) as [[Z R1]|] eqn:Q1; [|discriminate].
  cbn [bind] in Hst.
  set (U1 := mul o m U Z) in *.
  set (U3 := fun r i => if i <? nReg then U1 r i else mul o n R (from 0 ip Y) r (i - nReg)) in *.
  destruct (f n U3 R1 nReg (nReg + np) None) as [[U4 R2]|] eqn:Q2; [|discriminate]. cbn [bind] in Hst.
  set (R4 := zero_prev o (zero_diag o R2 s p numArb newArb nReg) (numArb <=? ipBefore) nReg np) in *.
  destruct (solve_H_Ref o LK t rs H1 R4 None None) as [e|] eqn:Es; [|discriminate]. cbn [bind] in Hst.
  injection Hst as <-. cbn [rH rVals rQ rR rhU rSVals rArb rhVecs rRot].
  set (arb' := if numArb <=? ipBefore then last_moved perm newArb (rs - newArb) newArb else rs) in *.
  assert (Ers : nReg + np = rs) by (unfold nReg; lia).
  (** indices *)
  assert (Hpn : forall i, i < nReg -> p i < n).
  { intros i Hi. rewrite forallb_forall in A1. apply Nat.ltb_lt, A1, in_seq. lia. }
  assert (Hlead : forall i, i < newArb -> p i < numArb).
  { intros i Hi. rewrite forallb_forall in A2. apply Nat.ltb_lt, A2, in_seq. lia. }
  assert (HnA : newArb <= nReg) by apply count_arb_le.
  assert (Hrest : forall i, newArb <= i -> i < nReg -> numArb <= p i).
  { intros i H2 H3. destruct (Nat.lt_ge_cases (p i) numArb) as [C|C]; [|exact C].
    assert (newArb < count_arb p numArb nReg) by (apply (count_arb_rest p numArb nReg newArb i); auto). fold newArb in H0. lia. }
  destruct (max_row_spec p numArb nReg) as (M1 & M2 & M3). fold m in M1, M2, M3.
  assert (Hmn : m <= n) by (apply M3; auto).
  (** the rotated columns *)
  set (ro := rotation o numArb Rot) in *. set (W := cols ro p).
  assert (Wz : forall r i, i < nReg -> r < n -> numArb <= r -> r <> p i -> W r i = k0 o).
  { intros r i Hi Hr Hra Hne. unfold W, cols, ro, rotation. destruct (Nat.ltb_spec (p i) numArb) as [C|C].
    - apply Hsup; auto.
    - unfold one. destruct (Nat.eqb_spec r (p i)); [contradiction|reflexivity]. }
  assert (Wm : forall r i, i < nReg -> r < n -> m <= r -> W r i = k0 o).
  { intros r i Hi Hr Hm. apply Wz; auto; [lia|]. specialize (M2 i Hi). lia. }
  assert (HW : gram o m nReg W (one o)).
  { intros i j Hi Hj. transitivity (mul o n (adj o ro) ro (p i) (p j)).
    - unfold mul. symmetry. rewrite (sum_window o L n 0 m); [reflexivity|lia|].
      intros l Hl Ho. assert (E0 := Wm l j Hj Hl ltac:(lia)). unfold W, cols in E0. rewrite E0. ring.
    - rewrite HR1 by auto. unfold one. destruct (Nat.eqb_spec i j) as [->|Hn]; [rewrite Nat.eqb_refl; reflexivity|].
      destruct (Nat.eqb_spec (p i) (p j)) as [E|]; [|reflexivity]. apply Hinj in E; auto. contradiction. }
  assert (Hrot0 : forall r i, r < m -> i < nReg -> rot0 o Rot s p numArb newArb r i = kmul o (W r i) (s r)).
  { intros r i Hr Hi. unfold rot0, W, cols, ro, rotation. destruct (Nat.ltb_spec i newArb) as [C|C].
    - assert (Hl := Hlead i C). destruct (Nat.ltb_spec (p i) numArb); [|lia].
      destruct (Nat.ltb_spec r numArb); [reflexivity|]. rewrite Hsup by (auto; lia). ring.
    - assert (Hl := Hrest i C Hi). destruct (Nat.ltb_spec (p i) numArb); [lia|]. unfold one.
      destruct (Nat.eqb_spec r (p i)) as [->|]; ring. }
  destruct (rot0_qr nonneg f m _ W s nReg Z R1 Hf Q1 HW) as (B1 & B2 & B3 & B4 & B5 & T & B6 & B7).
  { intros r Hr. apply Hs. lia. }
  { exact Hrot0. }
  set (V0 := rot0 o Rot s p numArb newArb) in *.
  (** the first nReg columns of R Y *)
  assert (HR : meq n n R (mul o n (mul o n U (diag o s)) (adj o X))).
  { rewrite <- HRX. unfold gram in HX'. rewrite (adjK o L) in HX'. rewrite <- (mulA o L). rewrite HX'. symmetry. apply (mul_1_r o L). }
  assert (HRV : forall i r, i < nReg -> r < n -> mul o n R Y r (perm i) = mul o m U V0 r i).
  { intros i r Hi Hr.
    transitivity (mul o n R hV r (p i)).
    { unfold mul. apply sum_ext. intros l Hl. rewrite HY by auto. reflexivity. }
    assert (E : meq n n (mul o n R hV) (mul o n U (mul o n (diag o s) ro))).
    { rewrite HhV. rewrite (mulA o L). rewrite HRX. rewrite <- (mulA o L). reflexivity. }
    rewrite (E r (p i)) by auto. unfold mul at 1. rewrite (sum_window o L n 0 m).
    - apply sum_ext. intros l Hl. cbn [plus]. rewrite (mul_diag_l o L) by lia. rewrite Hrot0 by auto.
      unfold W, cols. ring.
    - lia.
    - intros l Hl Ho. rewrite (mul_diag_l o L) by lia. assert (E0 := Wm l i Hi Hl ltac:(lia)).
      unfold W, cols in E0. rewrite E0. ring. }
  assert (HU1 : gram o n nReg U1 (one o)).
  { unfold gram, U1. rewrite (adjM o L). rewrite <- (mulA o L). rewrite (mulA o L _ _ _ _ (adj o U)).
    assert (E : meq m m (mul o n (adj o U) U) (one o)) by (intros i j Hi Hj; apply HUU; lia).
    rewrite E. rewrite (mul_1_l o L). exact B1. }
  (** all of R Y *)
  destruct (Hf _ _ _ _ _ _ _ Q2) as (F1 & F2 & F3 & F4 & _ & F6).
  assert (HU3 : gram o n nReg U3 (one o)).
  { intros i j Hi Hj. rewrite <- (HU1 i j Hi Hj). unfold mul, adj. apply sum_ext. intros l Hl. unfold U3.
    destruct (Nat.ltb_spec i nReg); [|lia]. destruct (Nat.ltb_spec j nReg); [|lia]. reflexivity. }
  specialize (F6 HU3). rewrite Ers in F2, F3, F4, F6.
  assert (E4 : forall r i, i < nReg -> U4 r i = U1 r i /\ forall l, R2 l i = R1 l i).
  { intros r i Hi. split; [destruct (F1 r i Hi) as [-> _]|intros l; destruct (F1 l i Hi) as [_ ->]; reflexivity].
    unfold U3. destruct (Nat.ltb_spec i nReg); [reflexivity|lia]. }
  assert (R2u : upper_triangular o rs R2).
  { intros i j Hi Hj Hij. destruct (Nat.lt_ge_cases j nReg) as [C|C].
    - destruct (E4 0 j C) as [_ E]. rewrite E. destruct (Nat.lt_ge_cases i nReg); [apply B3; auto|apply B4; auto].
    - apply F3; lia. }
  assert (HRY : meq n rs (cols (mul o n R Y) perm) (mul o rs U4 R2)).
  { intros r i Hr Hi. unfold cols. destruct (Nat.lt_ge_cases i nReg) as [C|C].
    - rewrite HRV by auto. unfold mul at 2. rewrite (sum_window o L rs 0 nReg); [|lia|].
      + assert (E : meq n nReg (mul o m U V0) (mul o nReg U1 R1)).
        { rewrite B2. unfold U1. rewrite (mulA o L). reflexivity. }
        rewrite (E r i Hr C). unfold mul at 1. apply sum_ext. intros l Hl. cbn [plus].
        destruct (E4 r l Hl) as [-> _]. destruct (E4 0 i C) as [_ ->]. reflexivity.
      + intros l Hl Ho. destruct (E4 0 i C) as [_ ->]. rewrite B4 by lia. ring.
    - rewrite <- (mul_upper rs U4 R2 r i); [|intros l H2 H3; apply R2u; lia|exact Hi].
      rewrite <- F2 by lia. unfold U3. destruct (Nat.ltb_spec i nReg); [lia|].
      replace i with (nReg + (i - nReg)) at 1 by lia. rewrite Hprev by lia. reflexivity. }
  (** nothing is lost by the zeros *)
  assert (Vz : forall k j, k < m -> j < nReg -> numArb <= k -> k <> p j -> V0 k j = k0 o).
  { intros k j Hk Hj H2 H3. rewrite Hrot0 by auto. rewrite Wz by (auto; lia). ring. }
  assert (Z1 : forall i, newArb <= i -> i < nReg -> (forall l, l < i -> R1 l i = k0 o) /\ R1 i i = s (p i)).
  { intros i H2 H3. assert (H4 := Hrest i H2 H3).
    assert (Vi : forall r, r < m -> V0 r i = if r =? p i then s (p i) else k0 o).
    { intros r Hr. unfold V0, rot0. destruct (Nat.ltb_spec i newArb); [lia|reflexivity]. }
    assert (Ez : forall l, l < i -> R1 l i = k0 o).
    { intros l Hl. rewrite (qr_entry m nReg Z V0 R1 l i B1 B2) by lia.
      unfold mul. rewrite (sum_one o L m (p i)); [|apply M2; exact H3|].
      - assert (Zl : Z (p i) l = k0 o).
        { rewrite (B7 (p i) l) by (auto; lia). unfold mul. apply (sum_zero o L). intros j Hj.
          destruct (Nat.lt_ge_cases l j) as [C|C]; [rewrite B6 by lia; ring|].
          rewrite Vz; [ring| apply M2; exact H3|exact Hj|exact H4|].
          intros E. apply Hinj in E; lia. }
        unfold adj. rewrite Zl, (l_conj_0 o L). ring.
      - intros r Hr Hne. rewrite Vi by exact Hr. destruct (Nat.eqb_spec r (p i)); [contradiction|ring]. }
    split; [exact Ez|]. apply Hnn; [apply B5; exact H3|apply Hs; auto|].
    (** the norms *)
    assert (Vz' : forall r, r < m -> V0 r i = kmul o (Z r i) (R1 i i)).
    { intros r Hr. rewrite (B2 r i Hr H3). unfold mul. rewrite (sum_one o L nReg i _ H3); [reflexivity|].
      intros l Hl Hne. destruct (Nat.lt_ge_cases l i); [rewrite Ez by auto; ring|rewrite B3 by lia; ring]. }
    transitivity (mul o m (adj o V0) V0 i i).
    - unfold mul, adj.
      rewrite (sum_ext o m _ (fun r => kmul o (kmul o (kconj o (R1 i i)) (R1 i i)) (kmul o (kconj o (Z r i)) (Z r i)))).
      2:{ intros r Hr. rewrite Vz' by exact Hr. rewrite (l_conj_mul o L). ring. }
      rewrite (sum_mull o L). assert (E := B1 i i H3 H3). unfold mul, adj, one in E. rewrite Nat.eqb_refl in E. rewrite E. ring.
    - unfold mul, adj. rewrite (sum_one o L m (p i)); [|apply M2; exact H3|].
      + rewrite Vi by (apply M2; exact H3). rewrite Nat.eqb_refl. reflexivity.
      + intros r Hr Hne. rewrite Vi by exact Hr. destruct (Nat.eqb_spec r (p i)); [contradiction|ring]. }
  assert (ER4 : meq rs rs R4 R2).
  { intros l i Hl Hi. unfold R4, zero_prev. destruct (Nat.lt_ge_cases i nReg) as [C|C].
    - rewrite (proj2 (out_range nReg (nReg + np) i)) by lia. rewrite andb_false_r.
      unfold zero_diag. destruct ((newArb <=? i) && (i <? nReg) && (numArb <=? p i)) eqn:Ec; [|reflexivity].
      apply andb_true_iff in Ec. destruct Ec as [Ec _]. apply in_range in Ec.
      destruct (Z1 i) as [Z1a Z1b]; [lia|lia|]. destruct (E4 0 i C) as [_ E].
      destruct (Nat.eqb_spec l i) as [->|Hne]; [rewrite E; congruence|].
      destruct (Nat.leb_spec l i); [|reflexivity]. rewrite E, Z1a by lia. reflexivity.
    - assert (Ezd : zero_diag o R2 s p numArb newArb nReg l i = R2 l i).
      { unfold zero_diag. destruct (Nat.ltb_spec i nReg); [lia|]. rewrite andb_false_r. reflexivity. }
      rewrite Ezd. rewrite (proj2 (in_range nReg (nReg + np) i)) by lia. rewrite andb_true_r.
      destruct (Nat.leb_spec numArb ipBefore) as [D|D]; [cbn [andb]|reflexivity].
      destruct (Nat.ltb_spec l nReg) as [D2|D2]; [|reflexivity]. symmetry.
      destruct (Hzero D) as (Hib & Hpb & Hort).
      rewrite (qr_entry n rs U4 (cols (mul o n R Y) perm) R2 l i F6 HRY Hl Hi).
      set (u := i - nReg). assert (Hu : u < np) by (unfold u; lia).
      assert (Ei : perm i = ip + u) by (rewrite <- Hprev by exact Hu; f_equal; unfold u; lia).
      transitivity (mul o n (adj o U1) (mul o n R Y) l (perm i)).
      { unfold mul at 1 3, adj. apply sum_ext. intros r Hr. destruct (E4 r l D2) as [-> _]. reflexivity. }
      rewrite Ei.
      assert (E : meq (S l) (S (ip + u)) (mul o n (adj o U1) (mul o n R Y))
                    (mul o m (adj o Z) (mul o n (diag o s) (mul o n (adj o X) Y)))).
      { rewrite HR. unfold U1. rewrite (adjM o L). rewrite <- (mulA o L).
        transitivity (mul o m (adj o Z) (mul o n (mul o n (adj o U) U) (mul o n (diag o s) (mul o n (adj o X) Y)))).
        - rewrite !(mulA o L). reflexivity.
        - assert (E : meq m n (mul o n (adj o U) U) (one o)) by (intros a b Ha Hb; apply HUU; lia).
          apply (mul_meq o _ m); [reflexivity|].
          rewrite E. intros a b Ha Hb. apply (mul_1_l o L n (S b)); lia. }
      rewrite (E l (ip + u)) by lia. unfold mul at 1. apply (sum_zero o L). intros k Hk.
      destruct (Nat.lt_ge_cases k ipBefore) as [C1|C1].
      + (** X'Y is zero in the row k *)
        rewrite (mul_diag_l o L) by lia.
        assert (Ex : mul o n (adj o X) Y k (ip + u) = k0 o).
        { assert (E2 : meq n (S (ip + u)) (mul o n (adj o X) Y) (mul o n ro (mul o n (adj o hV) Y))).
          { rewrite HhV. rewrite (adjM o L). rewrite !(mulA o L). unfold gram in HR2. rewrite (adjK o L) in HR2.
            rewrite HR2. rewrite (mul_1_l o L). reflexivity. }
          rewrite (E2 k (ip + u)) by lia. unfold mul at 1. apply (sum_zero o L). intros c Hc.
          destruct (Nat.lt_ge_cases c ipBefore) as [C2|C2].
          - rewrite Hort by auto. ring.
          - unfold ro, rotation. destruct (Nat.ltb_spec c numArb); [lia|]. unfold one.
            destruct (Nat.eqb_spec k c); [lia|]. ring. }
        rewrite Ex. ring.
      + assert (Zk : Z k l = k0 o).
        { rewrite (B7 k l) by lia. unfold mul. apply (sum_zero o L). intros j Hj.
          rewrite Vz; [ring|exact Hk|exact Hj|lia|]. specialize (Hpb j Hj). lia. }
        unfold adj. rewrite Zk, (l_conj_0 o L). ring. }
  (** the new singular vectors *)
  destruct (solve_H_Ref_plain LK t rs H1 R4 e G1 G2 G3 G4 Es) as (S1 & S2 & [S3 S4] & _).
  set (hv := hVecs e) in *.
  assert (Harb : arb' <= rs /\ forall k, arb' <= k -> k < rs -> perm k = k).
  { unfold arb'. destruct (numArb <=? ipBefore).
    - destruct (last_moved_spec perm rs (rs - newArb) newArb newArb) as [La Lb]; [lia|lia|]. cbv zeta in *.
      split; [lia|]. intros k H2 H3. apply Lb; lia.
    - split; [lia|]. intros. lia. }
  destruct Harb as [Harb Hfix].
  split.
  { unfold H1. destruct implicit; [|exact HH]. intros i j Hj Hi.
    assert (HU' := upper_meq o n H _ (form_herm o L N n A V HA) HH).
    assert (E : meq rs rs (compute_submatrix o rs n Y H) (form o N Vn A Vn)).
    { unfold compute_submatrix. rewrite HU'. unfold form, Vn. rewrite (adjM o L). rewrite !(mulA o L). reflexivity. }
    apply E; lia. }
  split; [reflexivity|]. exists hv. cbv zeta.
  set (X' := fun r j => hv (inv r) j).
  assert (EX1 : forall r j, r < rs -> j < arb' ->
    mul o rs X' (fun i j => if (j <? arb') && (i <? rs) then kconj o (hv j i) else k0 o) r j = one o r (perm j)).
  { intros r j Hr Hj. transitivity (mul o rs (adj o (adj o hv)) (adj o hv) (inv r) j).
    - unfold mul. apply sum_ext. intros l Hl. destruct (Nat.ltb_spec j arb'); [|lia]. destruct (Nat.ltb_spec l rs); [|lia].
      cbn [andb]. rewrite (adj_adj o L). reflexivity.
    - rewrite S4 by (try apply I2; lia). destruct (I2 r Hr) as [Ia Ib]. destruct (I1 j ltac:(lia)) as [Ic Id].
      unfold one. destruct (Nat.eqb_spec (inv r) j) as [E|E]; destruct (Nat.eqb_spec r (perm j)) as [E'|E']; auto; congruence. }
  split; [split; [|split; [|split; [|split; [|split]]]]|split; [exact Harb|split]].
  - (** factored *)
    assert (E : meq N rs (msub o (mul o N A Vn) (scale o tau Vn)) (mul o n Q (mul o n R Y))).
    { unfold factored in HF. unfold Vn. rewrite !(mulA o L). rewrite <- HF. rewrite (mulBl o L). rewrite (mulSl o L). reflexivity. }
    unfold factored. intros r c Hr Hc. rewrite (E r c Hr Hc).
    destruct (I2 c Hc) as [Ic Ed].
    assert (E2 : meq N rs (mul o n Q (cols (mul o n R Y) perm)) (mul o rs (mul o n Q U4) R4)).
    { rewrite HRY, ER4. apply (mulA o L). }
    transitivity (mul o n Q (cols (mul o n R Y) perm) r (inv c)).
    + unfold mul at 1 3. apply sum_ext. intros l Hl. unfold cols. rewrite Ed. reflexivity.
    + rewrite (E2 r (inv c) Hr Ic). reflexivity.
  - unfold gram in *. rewrite (adjM o L). rewrite <- (mulA o L). rewrite (mulA o L _ _ _ _ (adj o Q)). rewrite HQ.
    rewrite (mul_1_l o L). exact F6.
  - intros i j Hi Hj. rewrite <- (S1 i j Hi Hj). unfold mul, cols, X'.
    apply (sum_perm rs inv (fun l => kmul o (R4 i l) (hv l j)) Hpinv).
  - exact S2.
  - intros i j Hi Hj. rewrite <- (S3 i j Hi Hj). unfold mul, X', adj.
    apply (sum_perm rs inv (fun l => kmul o (kconj o (hv l i)) (hv l j)) Hpinv).
  - intros i j Hi Hj. rewrite <- (permutes_one o rs inv i j Hpinv Hi Hj).
    rewrite <- (S4 (inv i) (inv j)) by (apply I2; assumption). reflexivity.
  - intros r j Hr Hj. split; [|apply EX1; assumption]. destruct (Nat.ltb_spec j arb'); [|lia]. reflexivity.
  - intros HB. set (Rt := fun i j => if (j <? arb') && (i <? rs) then kconj o (hv j i) else k0 o) in *.
    assert (Rl : forall i j, i < rs -> rotation o arb' Rt i j = if j <? arb' then kconj o (hv j i) else one o i j).
    { intros i j Hi. unfold rotation, Rt. destruct (Nat.ltb_spec i rs); [|lia]. destruct (j <? arb'); reflexivity. }
    split; [exact Harb|]. split; [split|split].
    + intros i j Hi Hj. unfold mul, adj.
      rewrite (sum_ext o rs _ (fun k => kmul o (kconj o (if i <? arb' then kconj o (hv i k) else one o k i)) (if j <? arb' then kconj o (hv j k) else one o k j))).
      2:{ intros k Hk. rewrite !Rl by exact Hk. reflexivity. }
      assert (Ehh := S4 i j Hi Hj). unfold mul, adj in Ehh.
      destruct (Nat.ltb_spec i arb') as [Ci|Ci]; destruct (Nat.ltb_spec j arb') as [Cj|Cj].
      * exact Ehh.
      * rewrite (sum_one o L rs j _ Hj).
        -- rewrite (l_conj_conj o L). rewrite HB by (auto; lia). unfold one. destruct (Nat.eqb_spec i j); [lia|]. ring.
        -- intros k Hk Hne. unfold one. destruct (Nat.eqb_spec k j); [contradiction|ring].
      * rewrite (sum_one o L rs i _ Hi).
        -- rewrite (HB j i) by (auto; lia). rewrite (l_conj_0 o L). unfold one. destruct (Nat.eqb_spec i j); [lia|]. ring.
        -- intros k Hk Hne. unfold one. destruct (Nat.eqb_spec k i); [contradiction|]. rewrite (l_conj_0 o L). ring.
      * rewrite (sum_one o L rs i _ Hi).
        -- unfold one at 1. rewrite Nat.eqb_refl, (conj_1 o L). ring.
        -- intros k Hk Hne. unfold one at 1. destruct (Nat.eqb_spec k i); [contradiction|]. rewrite (l_conj_0 o L). ring.
    + intros i j Hi Hj. unfold mul.
      rewrite (sum_ext o rs _ (fun k => kmul o (if k <? arb' then kconj o (hv k i) else one o i k) (kconj o (if k <? arb' then kconj o (hv k j) else one o j k)))).
      2:{ intros k Hk. rewrite (adj_adj o L). unfold adj. rewrite !Rl by assumption. reflexivity. }
      assert (Ehh := S3 i j Hi Hj). unfold mul, adj in Ehh.
      destruct (Nat.lt_ge_cases i arb') as [Ci|Ci].
      * (** only the first block *)
        destruct (Nat.lt_ge_cases j arb') as [Cj|Cj].
        -- rewrite <- Ehh. apply sum_ext. intros k Hk. destruct (Nat.ltb_spec k arb'); [rewrite (l_conj_conj o L); reflexivity|].
           rewrite (HB k i), (HB k j) by (auto; lia). unfold one. destruct (Nat.eqb_spec i k); [lia|]. rewrite (l_conj_0 o L). ring.
        -- rewrite (sum_zero o L).
           ++ unfold one. destruct (Nat.eqb_spec i j); [lia|reflexivity].
           ++ intros k Hk. destruct (Nat.ltb_spec k arb').
              ** rewrite (HB k j) by (auto; lia). rewrite !(l_conj_0 o L). ring.
              ** unfold one at 1. destruct (Nat.eqb_spec i k); [lia|]. ring.
      * destruct (Nat.lt_ge_cases j arb') as [Cj|Cj].
        -- rewrite (sum_zero o L).
           ++ unfold one. destruct (Nat.eqb_spec i j); [lia|reflexivity].
           ++ intros k Hk. destruct (Nat.ltb_spec k arb').
              ** rewrite (HB k i) by (auto; lia). rewrite !(l_conj_0 o L). ring.
              ** unfold one at 2. destruct (Nat.eqb_spec j k); [lia|]. rewrite (l_conj_0 o L). ring.
        -- rewrite (sum_one o L rs i _ Hi).
           ++ destruct (Nat.ltb_spec i arb'); [lia|]. unfold one. rewrite Nat.eqb_refl. rewrite Nat.eqb_sym.
              destruct (i =? j); [rewrite (conj_1 o L); ring|rewrite (l_conj_0 o L); ring].
           ++ intros k Hk Hne. destruct (Nat.ltb_spec k arb').
              ** rewrite (HB k i) by (auto; lia). rewrite (l_conj_0 o L). ring.
              ** unfold one at 1. destruct (Nat.eqb_spec i k); [congruence|]. ring.
    + intros r c Hc Hr Hrs. unfold Rt. destruct (Nat.ltb_spec c arb'); [|lia]. destruct (Nat.ltb_spec r rs); [|lia].
      cbn [andb]. rewrite HB by (auto; lia). apply (l_conj_0 o L).
    + intros r j Hr Hj. destruct (Nat.ltb_spec j arb') as [Cj|Cj].
      * transitivity (one o r (perm j)); [reflexivity|]. rewrite <- (EX1 r j Hr Cj). unfold mul. apply sum_ext.
        intros l Hl. unfold rotation. destruct (Nat.ltb_spec j arb'); [|lia]. reflexivity.
      * transitivity (X' r j).
        -- unfold X'. destruct (I2 r Hr) as [Ia Ib]. destruct (Nat.lt_ge_cases r arb') as [Cr|Cr].
           ++ rewrite (HB r j) by (auto; lia). rewrite (HB (inv r) j); auto. left. split; [|exact Cj].
              destruct (Nat.lt_ge_cases (inv r) arb') as [|D]; [assumption|]. rewrite Hfix in Ib by auto. lia.
           ++ assert (inv r = r) as ->; [|reflexivity]. destruct (I1 r Hr) as [_ E]. rewrite Hfix in E by auto. exact E.
        -- unfold mul. rewrite (sum_one o L rs j _ Hj).
           ++ unfold rotation. destruct (Nat.ltb_spec j arb'); [lia|]. unfold one. rewrite Nat.eqb_refl. ring.
           ++ intros k Hk Hne. unfold rotation. destruct (Nat.ltb_spec j arb'); [lia|]. unfold one.
              destruct (Nat.eqb_spec k j); [contradiction|ring].
Qed.
End Proofs.
