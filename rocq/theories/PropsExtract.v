(** C50: what the three extractions compute. *)
From Coq Require Import List Arith Bool Lia Field Setoid Morphisms.
From Verif Require Import Base ProjModel SpecProj MatAlg ExtractModel SpecExtract.
Import ListNotations.

Section Proofs.
Context {K : Type} (o : scal K) (L : laws o).
Notation mx := (@mx K).
Add Field Kfield3 : (l_field o L).

Lemma conj_opp a : kconj o (kopp o a) = kopp o (kconj o a).
Proof.
  replace (kopp o a) with (ksub o (k0 o) a) by ring.
  rewrite (conj_sub o L), (l_conj_0 o L). ring.
Qed.

Lemma upper_meq n H P : hermitian o n P -> holds_upper n H P -> meq n n (upper o H) P.
Proof.
  intros HP HH i j Hi Hj. unfold upper. destruct (i <=? j) eqn:E.
  - apply Nat.leb_le in E. apply HH; assumption.
  - apply Nat.leb_gt in E. rewrite HH by lia. apply (HP i j Hi Hj).
Qed.

Lemma form_herm N n A V : hermitian o N A -> hermitian o n (form o N V A V).
Proof.
  unfold hermitian. intros HA. unfold form. rewrite !(adjM o L). rewrite (adjK o L). rewrite HA.
  rewrite <- (mulA o L). reflexivity.
Qed.

Lemma mul_neg_l k A B i j : mul o k (fun i j => kopp o (A i j)) B i j = kopp o (mul o k A B i j).
Proof.
  unfold mul. replace (kopp o (sum o k (fun l => kmul o (A i l) (B l j))))
    with (kmul o (kopp o (k1 o)) (sum o k (fun l => kmul o (A i l) (B l j)))) by ring.
  rewrite <- (sum_mull o L). apply sum_ext. intros. ring.
Qed.

Lemma neg_herm n P : hermitian o n P -> hermitian o n (fun i j => kopp o (P i j)).
Proof. intros H i j Hi Hj. unfold adj. rewrite conj_opp. f_equal. apply (H i j Hi Hj). Qed.

(** The Ritz pairs in the order of the target. *)
Lemma solve_H_RR_right (LK : kernels K) t n H P G w X :
  hermitian o n P -> holds_upper n H P ->
  hegv_right o LK n -> order_right LK n ->
  solve_H_RR o LK t n H G = Some (w, X) -> eigen_of o n P (opt o G) w X.
Proof.
  intros HP HH He Ho Hs.
  assert (HU := upper_meq n H P HP HH).
  assert (HN : meq n n (upper o (fun i j => kopp o (H i j))) (fun i j => kopp o (P i j))).
  { apply upper_meq; [apply neg_herm; exact HP|]. intros i j Hj Hi. rewrite HH by assumption. reflexivity. }
  assert (Hperm : forall p w0 X0, permutes n p -> eigen_of o n P (opt o G) w0 X0 ->
            eigen_of o n P (opt o G) (fun i => w0 (p i)) (cols X0 p)).
  { intros p w0 X0 [P1 P2] [E1 E2]. split.
    - intros i j Hi Hj. rewrite (mul_diag_r o L) by exact Hj.
      change (mul o n P (cols X0 p) i j) with (mul o n P X0 i (p j)).
      change (mul o n (opt o G) (cols X0 p) i j) with (mul o n (opt o G) X0 i (p j)).
      rewrite E1 by auto. rewrite (mul_diag_r o L) by auto. reflexivity.
    - intros i j Hi Hj. change (form o n (cols X0 p) (opt o G) (cols X0 p) i j)
        with (form o n X0 (opt o G) X0 (p i) (p j)).
      rewrite (E2 (p i) (p j)) by auto. unfold one.
      destruct (Nat.eqb_spec i j) as [->|N1].
      + rewrite Nat.eqb_refl. reflexivity.
      + destruct (Nat.eqb_spec (p i) (p j)) as [E|_]; [|reflexivity]. apply P2 in E; auto. congruence. }
  assert (Hw : forall A w X, meq n n A P -> hegv LK n A G = Some (w, X) -> eigen_of o n P (opt o G) w X).
  { intros A1 w1 X1 E H1. destruct (He A1 G w1 X1) as [E1 E2]; [|exact H1|].
    - unfold hermitian in *. rewrite E. exact HP.
    - split; [|exact E2]. rewrite <- E. exact E1. }
  assert (Hw' : forall A w X, meq n n A (fun i j => kopp o (P i j)) -> hegv LK n A G = Some (w, X) ->
            eigen_of o n (fun i j => kopp o (P i j)) (opt o G) w X).
  { intros A1 w1 X1 E H1. destruct (He A1 G w1 X1) as [E1 E2]; [|exact H1|].
    - unfold hermitian in *. rewrite E. exact (neg_herm n P HP).
    - split; [|exact E2]. rewrite <- E. exact E1. }
  unfold solve_H_RR in Hs. destruct t; cbn [bind] in Hs.
  - apply (Hw _ _ _ HU Hs).
  - destruct (hegv LK n (upper o (fun i j => kopp o (H i j))) G) as [[w0 X0]|] eqn:E; [|discriminate].
    injection Hs as <- <-. cbn [fst snd].
    destruct (Hw' _ _ _ HN E) as [E1 E2]. split; [|exact E2].
    intros i j Hi Hj. specialize (E1 i j Hi Hj). rewrite mul_neg_l in E1.
    rewrite (mul_diag_r o L) in E1 |- * by exact Hj.
    transitivity (kopp o (kmul o (mul o n (opt o G) X0 i j) (w0 j))); [rewrite <- E1; ring|ring].
  - destruct (hegv LK n (upper o H) G) as [[w0 X0]|] eqn:E; [|discriminate].
    injection Hs as <- <-. cbn [fst snd]. apply Hperm; [apply Ho|]. apply (Hw _ _ _ HU E).
  - destruct (hegv LK n (upper o H) G) as [[w0 X0]|] eqn:E; [|discriminate].
    injection Hs as <- <-. cbn [fst snd]. apply Hperm; [apply Ho|]. apply (Hw _ _ _ HU E).
  - destruct (hegv LK n (upper o H) G) as [[w0 X0]|] eqn:E; [|discriminate].
    injection Hs as <- <-. cbn [fst snd]. apply Hperm; [apply Ho|]. apply (Hw _ _ _ HU E).
  - destruct (hegv LK n (upper o H) G) as [[w0 X0]|] eqn:E; [|discriminate].
    injection Hs as <- <-. cbn [fst snd]. apply Hperm; [apply Ho|]. apply (Hw _ _ _ HU E).
Qed.

(** ** C50: Rayleigh-Ritz.  The residuals are orthogonal to the basis, the vectors
    are orthonormal and the values are their Rayleigh quotients. *)
Theorem C50_rayleigh_ritz (LK : kernels K) t N n A B V H VtBV w X :
  hermitian o N A -> holds_upper n H (form o N V A V) ->
  meq n n (opt o VtBV) (form o N V B V) ->
  hegv_right o LK n -> order_right LK n ->
  solve_H_RR o LK t n H VtBV = Some (w, X) ->
  let Y := mul o n V X in
  meq n n (form o N V A Y) (mul o n (form o N V B Y) (diag o w)) /\
  orthonormal_in o N n B Y /\
  (forall i, i < n -> w i = form o N Y A Y i i).
Proof.
  intros HA HH HG He Ho Hs Y.
  destruct (solve_H_RR_right LK t n H _ VtBV w X (form_herm N n A V HA) HH He Ho Hs) as [E1 E2].
  assert (EB : meq n n (form o N V B Y) (mul o n (opt o VtBV) X)).
  { unfold Y, form. rewrite HG. unfold form. rewrite !(mulA o L). reflexivity. }
  assert (EA : meq n n (form o N V A Y) (mul o n (form o N V A V) X)).
  { unfold Y, form. rewrite !(mulA o L). reflexivity. }
  assert (E3 : meq n n (form o N V A Y) (mul o n (form o N V B Y) (diag o w))).
  { rewrite EA, EB. exact E1. }
  assert (E4 : orthonormal_in o N n B Y).
  { unfold orthonormal_in. unfold orthonormal_in in E2. rewrite <- E2. unfold form at 2.
    rewrite <- EB. unfold form, Y. rewrite (adjM o L). rewrite !(mulA o L). reflexivity. }
  split; [exact E3|]. split; [exact E4|]. intros i Hi.
  assert (E5 : meq n n (form o N Y A Y) (diag o w)).
  { transitivity (mul o n (adj o X) (form o N V A Y)).
    - unfold form, Y. rewrite (adjM o L). rewrite !(mulA o L). reflexivity.
    - rewrite E3. rewrite (mulA o L).
      transitivity (mul o n (form o N Y B Y) (diag o w)).
      + apply (mul_meq o n n n); [|reflexivity]. unfold form, Y. rewrite (adjM o L).
        rewrite !(mulA o L). reflexivity.
      + unfold orthonormal_in in E4. rewrite E4. apply (mul_1_l o L). }
  rewrite (E5 i i Hi Hi). unfold diag. rewrite Nat.eqb_refl. reflexivity.
Qed.

Lemma rayleigh_form n H P X i : meq n n (upper o H) P -> i < n -> rayleigh o n H X i = form o n X P X i i.
Proof.
  intros HU Hi. unfold rayleigh, form, mul at 2, adj. apply sum_ext. intros r Hr. f_equal.
  apply (mul_meq o n n n _ _ _ _ HU (meq_refl n n X)); assumption.
Qed.

Lemma ref_order_permutes t n : permutes n (ref_order t n).
Proof. unfold permutes, ref_order. destruct t; split; intros; lia. Qed.

Lemma permutes_one n p i j : permutes n p -> i < n -> j < n -> one o (p i) (p j) = one o i j.
Proof.
  intros [_ P2] Hi Hj. unfold one. destruct (Nat.eqb_spec i j) as [->|N1].
  - rewrite Nat.eqb_refl. reflexivity.
  - destruct (Nat.eqb_spec (p i) (p j)) as [E|_]; [|reflexivity]. apply P2 in E; auto. congruence.
Qed.

(** What solve_H_Ref computes on the small matrices. *)
Lemma solve_H_Ref_small (LK : kernels K) t n H P R QtQ VtBV e :
  meq n n (upper o H) P ->
  gesvd_right o LK n -> potrf_right o LK n -> lsolve_right o LK n -> rsolve_right o LK n ->
  solve_H_Ref o LK t n H R QtQ VtBV = Some e ->
  (forall i, i < n -> hVals e i = form o n (hVecs e) P (hVecs e) i i) /\
  exists M U X hu s,
    (** M = C R / U with C'C = QtQ and U'U = VtBV *)
    gram o n n U (opt o VtBV) /\
    meq n n (mul o n (adj o (mul o n M U)) (mul o n M U)) (form o n R (opt o QtQ) R) /\
    meq n n (mul o n M (mul o n U X)) (mul o n hu (diag o s)) /\
    gram o n n hu (one o) /\ gram o n n (mul o n U X) (one o) /\
    gram o n n (adj o (mul o n U X)) (one o) /\
    (forall i, i < n -> kconj o (s i) = s i) /\
    hVecs e = cols X (ref_order t n) /\ hU e = cols hu (ref_order t n) /\
    hSVals e = (fun i => s (ref_order t n i)) /\
    (QtQ = None -> VtBV = None -> meq n n (mul o n M U) R /\ meq n n U (one o)).
Proof.
  intros HU Hsvd Hch Hl Hr Hs. unfold solve_H_Ref in Hs.
  assert (HM : exists M, match QtQ with None => Some R | Some G => C <- potrf LK n G ; Some (mul o n C R) end = Some M
               /\ meq n n (mul o n (adj o M) M) (form o n R (opt o QtQ) R) /\ (QtQ = None -> M = R)).
  { destruct QtQ as [G|]; cbn [opt].
    - destruct (potrf LK n G) as [C|] eqn:EC; [|discriminate]. cbn [bind]. eexists; split; [reflexivity|].
      split; [|discriminate]. assert (E := Hch G C EC). unfold gram in E. unfold form. rewrite <- E.
      rewrite (adjM o L). rewrite !(mulA o L). reflexivity.
    - exists R. split; [reflexivity|]. split; [|reflexivity]. unfold form.
      rewrite (mul_1_l o L). reflexivity. }
  destruct HM as (M & EM & HMM & HM0). rewrite EM in Hs. cbn [bind] in Hs.
  assert (HUM : exists Uo Mo, match VtBV with None => Some (None, M)
              | Some G => U <- potrf LK n G ; M' <- rsolve LK n U M ; Some (Some U, M') end = Some (Uo, Mo)
              /\ gram o n n (opt o Uo) (opt o VtBV) /\ meq n n (mul o n Mo (opt o Uo)) M
              /\ (VtBV = None -> Uo = None /\ Mo = M)).
  { destruct VtBV as [G|].
    - destruct (potrf LK n G) as [U|] eqn:EU; [|discriminate]. cbn [bind] in Hs |- *.
      destruct (rsolve LK n U M) as [M'|] eqn:ER; [|discriminate]. cbn [bind].
      exists (Some U), M'. split; [reflexivity|]. split; [exact (Hch G U EU)|].
      split; [exact (proj2 (Hr _ _ _ ER))|discriminate].
    - exists None, M. split; [reflexivity|]. cbn [opt]. split; [|split; [apply (mul_1_r o L)|auto]].
      unfold gram. rewrite (adj1 o L). apply (mul_1_l o L). }
  destruct HUM as (Uo & Mo & EUM & HGU & HMU & HV0). rewrite EUM in Hs. cbn [bind fst snd] in Hs.
  destruct (gesvd LK n Mo) as [[[hu s] vt]|] eqn:ES; [|discriminate]. cbn [bind] in Hs.
  destruct (Hsvd _ _ _ _ ES) as (SV1 & SV2 & SV3 & SV4 & SV5).
  assert (HX : exists X, match Uo with None => Some (adj o vt) | Some U => lsolve LK n U (adj o vt) end = Some X
               /\ meq n n (mul o n (opt o Uo) X) (adj o vt)).
  { destruct Uo as [U|]; cbn [opt] in *.
    - destruct (lsolve LK n U (adj o vt)) as [X|] eqn:EX; [|discriminate].
      exists X. split; [reflexivity|]. exact (proj2 (Hl _ _ _ EX)).
    - eexists; split; [reflexivity|]. apply (mul_1_l o L). }
  destruct HX as (X & EX & HX). rewrite EX in Hs. cbn [bind] in Hs. injection Hs as <-.
  cbn [hVals hVecs hU hSVals]. split.
  { intros i Hi. apply rayleigh_form; assumption. }
  exists Mo, (opt o Uo), X, hu, s.
  split; [exact HGU|]. split; [rewrite HMU; exact HMM|].
  split.
  { rewrite HX. rewrite SV1. unfold gram in SV4. rewrite (adjK o L) in SV4.
    rewrite <- !(mulA o L). rewrite SV4. rewrite (mul_1_r o L). reflexivity. }
  split; [exact SV2|]. split; [unfold gram; rewrite HX; exact SV4|].
  split; [unfold gram; rewrite HX; rewrite !(adjK o L); exact SV3|].
  split; [exact SV5|]. do 3 (split; [reflexivity|]).
  intros -> HV. destruct (HV0 HV) as [-> ->]. rewrite (HM0 eq_refl). cbn [opt].
  split; [apply (mul_1_r o L)|reflexivity].
Qed.

(** ** C50: refined extraction. *)
Theorem C50_refined (LK : kernels K) t N n A V H tau Q R QtQ VtBV e :
  hermitian o N A -> holds_upper n H (form o N V A V) ->
  gram o N n V (opt o VtBV) -> gram o N n Q (opt o QtQ) -> factored o N n A V V tau Q R ->
  gesvd_right o LK n -> potrf_right o LK n -> lsolve_right o LK n -> rsolve_right o LK n ->
  solve_H_Ref o LK t n H R QtQ VtBV = Some e ->
  let Y := mul o n V (hVecs e) in
  (** orthonormal vectors, their Rayleigh quotients, and the singular values as the
      norms of their residuals with respect to tau, which are orthogonal *)
  gram o N n Y (one o) /\
  (forall i, i < n -> hVals e i = form o N Y A Y i i) /\
  gram o N n (shifted o N A Y tau) (diag o (fun i => kmul o (hSVals e i) (hSVals e i))) /\
  (** the two quadratic forms of any vectors V c in the coordinates a = Y' V c *)
  (forall k c, let a := mul o N (adj o Y) (mul o n V c) in
     gram o N k (mul o n V c) (mul o n (adj o a) a) /\
     gram o N k (shifted o N A (mul o n V c) tau)
       (mul o n (adj o a) (mul o n (diag o (fun i => kmul o (hSVals e i) (hSVals e i))) a))).
Proof.
  intros HA HH HV HQ HF Hsvd Hch Hl Hr Hs Y.
  destruct (solve_H_Ref_small LK t n H _ R QtQ VtBV e (upper_meq n H _ (form_herm N n A V HA) HH) Hsvd Hch Hl Hr Hs)
    as (HR & M & U & X & hu & s & HU & HMM & HSV & Hhu & HUX & HUX' & Hs' & EX & EU & ES & _).
  set (p := ref_order t n) in *. assert (Hp := ref_order_permutes t n). fold p in Hp. destruct (Hp) as [Hp1 Hp2].
  unfold gram in HU, Hhu, HUX, HUX', HV, HQ.
  (** shifted is linear *)
  assert (Hsh : forall k c, meq N k (shifted o N A (mul o n V c) tau) (mul o n Q (mul o n R c))).
  { intros k c. unfold shifted. rewrite (mulA o L). rewrite (mulA o L _ _ _ _ _ _ c).
    unfold factored in HF. rewrite <- HF. rewrite (mulBl o L). rewrite (mulSl o L). reflexivity. }
  assert (Hsg : forall k c, meq k k (mul o N (adj o (shifted o N A (mul o n V c) tau)) (shifted o N A (mul o n V c) tau))
                 (mul o n (adj o (mul o n (mul o n M U) c)) (mul o n (mul o n M U) c))).
  { intros k c. rewrite (Hsh k c).
    transitivity (mul o n (adj o c) (mul o n (form o n R (opt o QtQ) R) c)).
    - unfold form. rewrite <- HQ. rewrite !(adjM o L). rewrite !(mulA o L). reflexivity.
    - rewrite <- HMM. rewrite !(adjM o L). rewrite !(mulA o L). reflexivity. }
  assert (Hg : forall k c, meq k k (mul o N (adj o (mul o n V c)) (mul o n V c))
                 (mul o n (adj o (mul o n U c)) (mul o n U c))).
  { intros k c. transitivity (mul o n (adj o c) (mul o n (opt o VtBV) c)).
    - rewrite <- HV. rewrite !(adjM o L). rewrite !(mulA o L). reflexivity.
    - rewrite <- HU. rewrite !(adjM o L). rewrite !(mulA o L). reflexivity. }
  assert (HUXU : forall k c, meq n k (mul o n (mul o n U X) (mul o n (adj o (mul o n U X)) (mul o n U c))) (mul o n U c)).
  { intros k c. rewrite (adjK o L) in HUX'. rewrite (mulA o L). rewrite HUX'. apply (mul_1_l o L). }
  assert (HMS : meq n n (mul o n (adj o (mul o n M (mul o n U X))) (mul o n M (mul o n U X)))
                  (diag o (fun i => kmul o (s i) (s i)))).
  { rewrite HSV. rewrite (adjM o L). rewrite <- (mulA o L). rewrite (mulA o L _ _ _ _ (adj o hu)).
    rewrite Hhu. rewrite (mul_1_l o L). intros i j Hi Hj. rewrite (mul_diag_r o L n) by exact Hj.
    unfold adj, diag. rewrite Nat.eqb_sym. destruct (Nat.eqb_spec i j) as [->|_].
    - rewrite (Hs' j Hj). reflexivity.
    - rewrite (l_conj_0 o L). ring. }
  assert (EG : gram o N n Y (one o)).
  { unfold gram, Y. rewrite EX. intros i j Hi Hj.
    change (mul o N (adj o (mul o n V (cols X p))) (mul o n V (cols X p)) i j)
      with (mul o N (adj o (mul o n V X)) (mul o n V X) (p i) (p j)).
    rewrite (Hg n X (p i) (p j)) by (apply Hp1; assumption).
    rewrite (HUX (p i) (p j)) by (apply Hp1; assumption). apply (permutes_one n p i j Hp Hi Hj). }
  assert (ESh : gram o N n (shifted o N A Y tau) (diag o (fun i => kmul o (hSVals e i) (hSVals e i)))).
  { unfold gram, Y. rewrite EX, ES. intros i j Hi Hj.
    change (mul o N (adj o (shifted o N A (mul o n V (cols X p)) tau)) (shifted o N A (mul o n V (cols X p)) tau) i j)
      with (mul o N (adj o (shifted o N A (mul o n V X) tau)) (shifted o N A (mul o n V X) tau) (p i) (p j)).
    rewrite (Hsg n X (p i) (p j)) by (apply Hp1; assumption).
    assert (E : meq n n (mul o n (adj o (mul o n (mul o n M U) X)) (mul o n (mul o n M U) X))
                 (diag o (fun i => kmul o (s i) (s i)))).
    { rewrite <- (mulA o L). exact HMS. }
    rewrite (E (p i) (p j)) by (apply Hp1; assumption). unfold diag.
    destruct (Nat.eqb_spec i j) as [->|N1].
    - rewrite Nat.eqb_refl. reflexivity.
    - destruct (Nat.eqb_spec (p i) (p j)) as [E'|_]; [|reflexivity]. apply Hp2 in E'; auto. congruence. }
  split; [exact EG|]. split.
  { intros i Hi. rewrite HR by exact Hi.
    assert (E : meq n n (form o n (hVecs e) (form o N V A V) (hVecs e)) (form o N Y A Y)).
    { unfold Y, form. rewrite (adjM o L). rewrite !(mulA o L). reflexivity. }
    apply (E i i Hi Hi). }
  split; [exact ESh|]. intros k c a.
  (** a in the coordinates of U X before the permutation *)
  set (b := mul o n (adj o (mul o n U X)) (mul o n U c)).
  assert (Hab : forall i j, i < n -> a i j = b (p i) j).
  { intros i j Hi. unfold a, Y. rewrite EX.
    change (mul o N (adj o (mul o n V (cols X p))) (mul o n V c) i j)
      with (mul o N (adj o (mul o n V X)) (mul o n V c) (p i) j).
    assert (E : meq n (S j) (mul o N (adj o (mul o n V X)) (mul o n V c)) b).
    { unfold b. transitivity (mul o n (adj o X) (mul o n (opt o VtBV) c)).
      - rewrite <- HV. rewrite !(adjM o L). rewrite !(mulA o L). reflexivity.
      - rewrite <- HU. rewrite !(adjM o L). rewrite !(mulA o L). reflexivity. }
    apply E; [apply Hp1; assumption|lia]. }
  assert (Hsum : forall f, sum o n (fun i => f (p i)) = sum o n f).
  { intros f. unfold p, ref_order. destruct t; try reflexivity.
    all: clear -L; induction n as [|m IH] using nat_ind; [reflexivity|].
    all: rewrite (sum_ext o (S m) (fun i => f (S m - 1 - i)) (fun i => f (m - i))) by (intros; f_equal; lia).
    all: replace (S m) with (1 + m)%nat by lia; rewrite (sum_split o L 1 m).
    all: change (1 + m)%nat with (S m); cbn [sum].
    all: rewrite (sum_ext o m (fun i => f (m - (1 + i))) (fun i => f (m - 1 - i))) by (intros; f_equal; lia).
    all: rewrite IH, Nat.sub_0_r; ring. }
  split.
  - unfold gram. intros i j Hi Hj. rewrite (Hg k c i j Hi Hj).
    transitivity (mul o n (adj o b) b i j).
    + assert (E : meq k k (mul o n (adj o (mul o n U c)) (mul o n U c)) (mul o n (adj o b) b)).
      { rewrite <- (HUXU k c) at 1. rewrite <- (HUXU k c) at 2. fold b. rewrite (adjM o L). rewrite <- (mulA o L).
        rewrite (mulA o L _ _ _ _ (adj o (mul o n U X))). rewrite HUX. rewrite (mul_1_l o L). reflexivity. }
      apply (E i j Hi Hj).
    + unfold mul at 1. rewrite <- Hsum. apply sum_ext. intros l Hl'. unfold adj. rewrite !Hab by exact Hl'. reflexivity.
  - unfold gram. intros i j Hi Hj. rewrite (Hsg k c i j Hi Hj).
    transitivity (mul o n (adj o b) (mul o n (diag o (fun i => kmul o (s i) (s i))) b) i j).
    + assert (E : meq k k (mul o n (adj o (mul o n (mul o n M U) c)) (mul o n (mul o n M U) c))
                   (mul o n (adj o b) (mul o n (diag o (fun i => kmul o (s i) (s i))) b))).
      { rewrite <- HMS. rewrite <- (mulA o L _ _ _ _ M).
        rewrite <- (HUXU k c). fold b. rewrite !(adjM o L). rewrite !(mulA o L). reflexivity. }
      apply (E i j Hi Hj).
    + unfold mul at 1 3. rewrite <- Hsum. apply sum_ext. intros l Hl'. rewrite !(mul_diag_l o L) by (try apply Hp1; exact Hl').
      unfold adj. rewrite ES, !Hab by exact Hl'. reflexivity.
Qed.

(** The harmonic extraction, and where the harmonic values come from. *)
Lemma harmonic_full (LK : kernels K) t N n A V H tau Q R QtV QtQ VtBV sv e :
  hermitian o N A -> kconj o tau = tau -> holds_upper n H (form o N V A V) ->
  gram o N n V (opt o VtBV) -> gram o N n Q (opt o QtQ) -> factored o N n A V V tau Q R ->
  meq n n QtV (mul o N (adj o Q) V) ->
  hegv_right o LK n -> order_right LK n -> lsolve_right o LK n -> bortho_right o LK n VtBV ->
  solve_H_Harm o LK t n H QtV R QtQ VtBV sv = Some e ->
  let Y := mul o n V (hVecs e) in
  let D := shifted o N A V tau in
  gram o N n Y (one o) /\
  (forall i, i < n -> hVals e i = form o N Y A Y i i) /\
  exists Z T mu,
    upper_triangular o n T /\ meq n n Z (mul o n (hVecs e) T) /\
    meq n n (mul o N (adj o D) (mul o n V Z)) (mul o n (mul o N (adj o D) (mul o n D Z)) (diag o mu)) /\
    gram o N n (mul o n D Z) (one o) /\ meq n n (mul o n R Z) (hU e) /\
    exists t' QAQ, harmonic_target t = Some t' /\ solve_H_RR o LK t' n QAQ QtQ = Some (mu, hU e).
Proof.
  intros HA Ht HH HV HQ HF HQV He Ho Hl Hb Hs Y D. unfold hermitian in HA.
  unfold gram in *. unfold factored in HF.
  assert (HD : meq N n D (mul o n Q R)) by exact HF.
  unfold solve_H_Harm in Hs.
  destruct (lsolve LK n (adj o R) (adj o QtV)) as [QAQ|] eqn:E1; [|discriminate]. cbn [bind] in Hs.
  destruct (Hl _ _ _ E1) as [HR1 HQAQ].
  destruct (harmonic_target t) as [t'|] eqn:Et; [|discriminate]. cbn [bind] in Hs.
  destruct (solve_H_RR o LK t' n QAQ QtQ) as [[w U]|] eqn:E2; [|discriminate]. cbn [bind snd] in Hs.
  destruct (lsolve LK n R U) as [Z|] eqn:E3; [|discriminate]. cbn [bind] in Hs.
  destruct (Hl _ _ _ E3) as [HR HZ].
  destruct (bortho LK n Z VtBV) as [X|] eqn:E4; [|discriminate]. cbn [bind] in Hs.
  injection Hs as <-. cbn [hVecs hVals hU] in *.
  destruct (Hb _ _ E4) as (HX & T & HT & HZX).
  (** D'V is Hermitian *)
  assert (HDV : meq n n (adj o (mul o N (adj o D) V)) (mul o N (adj o D) V)).
  { rewrite (adjM o L), (adjK o L). unfold D, shifted.
    assert (E : meq n N (adj o (msub o (mul o N A V) (scale o tau V)))
                (msub o (mul o N (adj o V) A) (scale o tau (adj o V)))).
    { transitivity (msub o (adj o (mul o N A V)) (scale o tau (adj o V))).
      - intros i j Hi Hj. unfold adj, msub, scale.
        rewrite (conj_sub o L), (l_conj_mul o L), Ht. reflexivity.
      - rewrite (adjM o L). rewrite HA. reflexivity. }
    rewrite E. rewrite (mulBl o L), (mulBr o L), (mulA o L), (mulSl o L), (mulSr o L). reflexivity. }
  (** R' QAQ R = (D'V)' *)
  assert (HRQ : meq n n (mul o n (adj o R) (mul o n QAQ R)) (mul o N (adj o D) V)).
  { rewrite (mulA o L), HQAQ. rewrite <- HDV. rewrite HQV, (adjM o L), (adjM o L), (adjK o L).
    rewrite <- (mulA o L). rewrite <- HD. rewrite (adjK o L). reflexivity. }
  assert (HQH : hermitian o n QAQ).
  { unfold hermitian. apply (regular_cancel o L n n (adj o R)); [exact HR1|].
    assert (E : meq n n (adj o (mul o n (adj o R) (adj o QAQ))) (adj o (mul o n (adj o R) QAQ))).
    { apply (regular_cancel o L n n (adj o R)); [exact HR1|].
      rewrite (adjM o L), !(adjK o L). rewrite HRQ. rewrite <- HDV. rewrite <- HRQ.
      rewrite !(adjM o L), (adjK o L). rewrite (mulA o L). reflexivity. }
    rewrite <- (adjK o L n n (mul o n (adj o R) (adj o QAQ))). rewrite E. apply (adjK o L). }
  destruct (solve_H_RR_right LK t' n QAQ QAQ QtQ w U HQH) as [Ev1 Ev2]; auto.
  { intros i j _ _. reflexivity. }
  assert (EY : meq n n (mul o N (adj o Y) Y) (one o)).
  { unfold orthonormal_in, form in HX. rewrite <- HX. unfold Y. rewrite <- HV. rewrite (adjM o L).
    rewrite !(mulA o L). reflexivity. }
  split; [exact EY|]. split.
  { intros i Hi. rewrite (rayleigh_form n H _ X i (upper_meq n H _ (form_herm N n A V HA) HH) Hi).
    assert (E : meq n n (form o n X (form o N V A V) X) (form o N Y A Y)).
    { unfold Y, form. rewrite (adjM o L). rewrite !(mulA o L). reflexivity. }
    apply (E i i Hi Hi). }
  assert (HDZ : meq N n (mul o n D Z) (mul o n Q U)).
  { rewrite HD, <- (mulA o L), HZ. reflexivity. }
  exists Z, T, w. split; [exact HT|]. split; [exact HZX|]. split; [|split; [|split; [exact HZ|eauto]]].
  - rewrite HDZ. rewrite HD at 2. rewrite (adjM o L).
    transitivity (mul o n (adj o R) (mul o n (mul o n (opt o QtQ) U) (diag o w))).
    + rewrite <- Ev1. rewrite <- HZ. rewrite !(mulA o L). rewrite <- HRQ.
      rewrite !(mulA o L). reflexivity.
    + rewrite <- HQ. rewrite !(mulA o L). reflexivity.
  - rewrite HDZ. unfold orthonormal_in, form in Ev2. rewrite <- Ev2. rewrite <- HQ. rewrite (adjM o L).
    rewrite !(mulA o L). reflexivity.
Qed.

(** ** C50: harmonic extraction.  Z holds the harmonic Ritz vectors: with the
    residual mapped by A - tau I the projection is oblique, mu is 1/(theta - tau).
    The vectors returned are the orthonormalization of Z, column after column. *)
Theorem C50_harmonic (LK : kernels K) t N n A V H tau Q R QtV QtQ VtBV sv e :
  hermitian o N A -> kconj o tau = tau -> holds_upper n H (form o N V A V) ->
  gram o N n V (opt o VtBV) -> gram o N n Q (opt o QtQ) -> factored o N n A V V tau Q R ->
  meq n n QtV (mul o N (adj o Q) V) ->
  hegv_right o LK n -> order_right LK n -> lsolve_right o LK n -> bortho_right o LK n VtBV ->
  solve_H_Harm o LK t n H QtV R QtQ VtBV sv = Some e ->
  let Y := mul o n V (hVecs e) in
  let D := shifted o N A V tau in
  gram o N n Y (one o) /\
  (forall i, i < n -> hVals e i = form o N Y A Y i i) /\
  exists Z T mu,
    upper_triangular o n T /\ meq n n Z (mul o n (hVecs e) T) /\
    meq n n (mul o N (adj o D) (mul o n V Z)) (mul o n (mul o N (adj o D) (mul o n D Z)) (diag o mu)) /\
    gram o N n (mul o n D Z) (one o) /\ meq n n (mul o n R Z) (hU e).
Proof.
  intros HA Ht HH HV HQ HF HQV He Ho Hl Hb Hs.
  destruct (harmonic_full LK t N n A V H tau Q R QtV QtQ VtBV sv e HA Ht HH HV HQ HF HQV He Ho Hl Hb Hs)
    as (P1 & P2 & Z & T & mu & P3 & P4 & P5 & P6 & P7 & _).
  cbv zeta. split; [exact P1|]. split; [exact P2|]. exists Z, T, mu. auto.
Qed.

(** ** prepare_vecs *)
Lemma sum_window n j a f : j + a <= n -> (forall l, l < n -> l < j \/ j + a <= l -> f l = k0 o) ->
  sum o n f = sum o a (fun k => f (j + k)).
Proof.
  intros Hn Hz. replace n with (j + a + (n - j - a)) by lia. rewrite !(sum_split o L).
  rewrite (sum_zero o L j f), (sum_zero o L (n - j - a) (fun i => f (j + a + i))).
  - ring.
  - intros l Hl. apply Hz; lia.
  - intros l Hl. apply Hz; lia.
Qed.

(** The identity with the block D at j, ..., i-1. *)
Definition block (j i : nat) (D : mx) : mx :=
  fun r c => if (j <=? c) && (c <? i) then (if (j <=? r) && (r <? i) then D (r - j) (c - j) else k0 o) else one o r c.

Lemma in_range a b c : (a <=? c) && (c <? b) = true <-> a <= c < b.
Proof. rewrite andb_true_iff, Nat.leb_le, Nat.ltb_lt. reflexivity. Qed.
Lemma out_range a b c : (a <=? c) && (c <? b) = false <-> c < a \/ b <= c.
Proof. rewrite andb_false_iff, Nat.leb_gt, Nat.ltb_ge. reflexivity. Qed.

Lemma mul_block_in n j i D M r c : i <= n -> j <= c < i ->
  mul o n M (block j i D) r c = sum o (i - j) (fun k => kmul o (M r (j + k)) (D k (c - j))).
Proof.
  intros Hi Hc. unfold mul.
  rewrite (sum_window n j (i - j)).
  - apply sum_ext. intros k Hk. unfold block.
    rewrite (proj2 (in_range j i c)) by exact Hc. rewrite (proj2 (in_range j i (j + k))) by lia.
    replace (j + k - j) with k by lia. reflexivity.
  - lia.
  - intros l Hl Ho. unfold block. rewrite (proj2 (in_range j i c)) by exact Hc.
    rewrite (proj2 (out_range j i l)) by lia. ring.
Qed.
Lemma mul_block_out n j i D M r c : c < n -> c < j \/ i <= c -> mul o n M (block j i D) r c = M r c.
Proof.
  intros Hn Hc. transitivity (mul o n M (one o) r c); [|apply (mul_1_r o L n (S r)); lia].
  unfold mul. apply sum_ext. intros l Hl.
  unfold block. rewrite (proj2 (out_range j i c)) by exact Hc. reflexivity.
Qed.

Lemma block_unitary n j i D : i <= n -> gram o (i - j) (i - j) D (one o) -> gram o n n (block j i D) (one o).
Proof.
  intros Hi HD r c Hr Hc.
  destruct ((j <=? c) && (c <? i)) eqn:Ec.
  - apply in_range in Ec. rewrite mul_block_in by assumption.
    destruct ((j <=? r) && (r <? i)) eqn:Er.
    + apply in_range in Er.
      transitivity (mul o (i - j) (adj o D) D (r - j) (c - j)).
      * unfold mul. apply sum_ext. intros k Hk. f_equal. unfold adj, block.
        rewrite (proj2 (in_range j i r)) by exact Er. rewrite (proj2 (in_range j i (j + k))) by lia.
        do 2 f_equal. lia.
      * rewrite (HD (r - j) (c - j)) by lia. unfold one.
        destruct (Nat.eqb_spec r c) as [->|N1]; [rewrite Nat.eqb_refl; reflexivity|].
        destruct (Nat.eqb_spec (r - j) (c - j)); [lia|reflexivity].
    + rewrite (sum_zero o L).
      * unfold one. apply out_range in Er. destruct (Nat.eqb_spec r c); [lia|reflexivity].
      * intros k Hk. unfold adj, block. rewrite Er. apply out_range in Er. unfold one.
        destruct (Nat.eqb_spec (j + k) r) as [E|_]; [lia|]. rewrite (l_conj_0 o L). ring.
  - apply out_range in Ec. rewrite mul_block_out by assumption. unfold adj, block.
    destruct ((j <=? r) && (r <? i)) eqn:Er.
    + rewrite (proj2 (out_range j i c)) by exact Ec. rewrite (l_conj_0 o L).
      apply in_range in Er. unfold one. destruct (Nat.eqb_spec r c); [lia|reflexivity].
    + fold (adj o (one o) r c). apply (adj_one o L).
Qed.

Lemma rotate_block (LK : kernels K) t n H P j i p p' :
  hermitian o n P -> holds_upper n H P -> hegv_right o LK (i - j) -> order_right LK (i - j) ->
  arb p <= j -> j < i -> i <= n ->
  rotate o LK t n H j i p = Some p' ->
  exists D w, gram o (i - j) (i - j) D (one o) /\ arb p' = i /\
    meq n n (pVecs p') (mul o n (pVecs p) (block j i D)) /\
    meq n n (rot o p') (mul o n (rot o p) (block j i D)) /\
    (forall c, c < j \/ i <= c -> pVals p' c = pVals p c) /\
    (forall c, j <= c < i -> pVals p' c = w (c - j)) /\
    (forall c d, j <= c < i -> j <= d < i ->
       form o n (pVecs p') P (pVecs p') c d = diag o w (c - j) (d - j)).
Proof.
  intros HP HH He Ho Ha Hj Hi Hs. unfold rotate in Hs.
  set (a := i - j) in *. set (Y := fun r c => pVecs p r (j + c)) in *.
  set (aH := compute_submatrix o a n Y H) in *.
  destruct (solve_H_RR o LK t a aH None) as [[w D]|] eqn:E; [|discriminate]. cbn [bind fst snd] in Hs.
  assert (HU := upper_meq n H P HP HH).
  assert (HaH : meq a a aH (form o n Y P Y)).
  { unfold aH, compute_submatrix, form. rewrite HU. reflexivity. }
  assert (Hh : hermitian o a (form o n Y P Y)) by (apply form_herm; exact HP).
  destruct (solve_H_RR_right LK t a aH (form o n Y P Y) None w D Hh) as [E1 E2]; auto.
  { intros r c Hc Hr. apply HaH; lia. }
  cbn [opt] in E1, E2. unfold orthonormal_in, form in E2. rewrite (mul_1_l o L) in E2. rewrite (mul_1_l o L) in E1.
  injection Hs as <-. exists D, w. cbn [pVecs pVals pRot arb].
  split; [exact E2|]. split; [reflexivity|].
  assert (HV : meq n n (fun r c => if (j <=? c) && (c <? i) then mul o a Y D r (c - j) else pVecs p r c)
                 (mul o n (pVecs p) (block j i D))).
  { intros r c Hr Hc. destruct ((j <=? c) && (c <? i)) eqn:Ec.
    - apply in_range in Ec. rewrite mul_block_in by assumption. reflexivity.
    - apply out_range in Ec. rewrite mul_block_out by assumption. reflexivity. }
  split; [exact HV|]. split.
  { intros r c Hr Hc. unfold rot at 1. cbn [arb pRot].
    destruct ((j <=? c) && (c <? i)) eqn:Ec.
    - assert (Ec' := Ec). apply in_range in Ec. rewrite mul_block_in by assumption.
      destruct (Nat.ltb_spec c i); [|lia]. cbn [andb].
      assert (Hz : forall k, k < a -> rot o p r (j + k) = one o r (j + k)).
      { intros k Hk. unfold rot. destruct (Nat.ltb_spec (j + k) (arb p)); [lia|reflexivity]. }
      destruct ((j <=? r) && (r <? i)) eqn:Er.
      + apply in_range in Er. fold a. rewrite (sum_one o L a (r - j)).
        * rewrite Hz by lia. unfold one. replace (j + (r - j)) with r by lia. rewrite Nat.eqb_refl. ring.
        * lia.
        * intros k Hk N1. rewrite Hz by exact Hk. unfold one. destruct (Nat.eqb_spec r (j + k)); [lia|ring].
      + fold a. rewrite (sum_zero o L).
        * apply out_range in Er. destruct (Nat.leb_spec (arb p) c); [|lia]. cbn [andb].
          destruct (Nat.eqb_spec r c); [lia|reflexivity].
        * intros k Hk. rewrite Hz by exact Hk. apply out_range in Er. unfold one.
          destruct (Nat.eqb_spec r (j + k)); [lia|ring].
    - assert (Ec' := Ec). apply out_range in Ec. rewrite mul_block_out by assumption. cbn [andb]. unfold rot, one.
      destruct (Nat.ltb_spec c i).
      + destruct (Nat.ltb_spec c (arb p)).
        * destruct (Nat.leb_spec (arb p) c); [lia|]. cbn [andb]. reflexivity.
        * destruct (Nat.leb_spec (arb p) c); [|lia]. cbn [andb]. reflexivity.
      + destruct (Nat.ltb_spec c (arb p)); [lia|reflexivity]. }
  split; [intros c Hc; rewrite (proj2 (out_range j i c)) by exact Hc; reflexivity|].
  split; [intros c Hc; rewrite (proj2 (in_range j i c)) by exact Hc; reflexivity|].
  intros c d Hc Hd. match goal with |- form o n ?X P _ c d = _ => set (X' := X) end.
  assert (EYD : meq a a (form o n (mul o a Y D) P (mul o a Y D)) (diag o w)).
  { transitivity (mul o a (adj o D) (mul o a (form o n Y P Y) D)).
    - unfold form. rewrite (adjM o L). rewrite !(mulA o L). reflexivity.
    - rewrite E1. rewrite (mulA o L). rewrite E2. apply (mul_1_l o L). }
  rewrite <- (EYD (c - j) (d - j)) by lia.
  unfold form, mul. apply sum_ext. intros r Hr. f_equal.
  - unfold adj, X'. rewrite (proj2 (in_range j i c)) by exact Hc. reflexivity.
  - apply sum_ext. intros l Hl. f_equal. unfold X'. rewrite (proj2 (in_range j i d)) by exact Hd. reflexivity.
Qed.

(** What prepare_vecs preserves: the vectors are the singular vectors hV with a
    unitary rotation, and the values are Rayleigh quotients. *)
Definition consistent (n : nat) (P hV : mx) (p : prep K) : Prop :=
  meq n n (pVecs p) (mul o n hV (rot o p)) /\ gram o n n (rot o p) (one o) /\
  (forall c, c < n -> pVals p c = form o n (pVecs p) P (pVecs p) c c).

Lemma form_cols n P X Y c d : (forall r, r < n -> X r c = Y r c) -> (forall r, r < n -> X r d = Y r d) ->
  form o n X P X c d = form o n Y P Y c d.
Proof.
  intros H1 H2. unfold form, mul. apply sum_ext. intros r Hr. f_equal.
  - unfold adj. rewrite H1 by exact Hr. reflexivity.
  - apply sum_ext. intros l Hl. rewrite H2 by exact Hl. reflexivity.
Qed.

Lemma clusters_ext far n P X Y j e : (forall r c, r < n -> c < e -> X r c = Y r c) ->
  clusters o far n P X j e -> clusters o far n P Y j e.
Proof.
  intros H C. induction C as [j|j i e C IH H1 H2 H3 H4 H5]; [constructor|].
  apply cl_add with (i := i); auto.
  - apply IH. intros r c Hr Hc. apply H; lia.
  - intros c d Hc Hd N1. rewrite <- (form_cols n P X Y c d); [auto| |]; intros; apply H; lia.
Qed.

Lemma find_sep_spec (far : nat -> bool) n fuel i : n < i + fuel ->
  let e := Nat.min (find_sep far fuel i n) n in
  (forall k, i <= k < e -> far k = false) /\ (i <= n -> i <= e) /\ e <= n /\ (i <= n -> e < n -> far e = true).
Proof.
  revert i. induction fuel as [|f IH]; intros i Hf; cbn [find_sep].
  - cbv zeta. repeat split; intros; lia.
  - destruct (Nat.ltb_spec i n) as [Hi|Hi].
    + destruct (far i) eqn:E.
      * cbv zeta. replace (Nat.min i n) with i by lia. repeat split; intros; try lia; exact E.
      * destruct (IH (i + 1)) as (I1 & I2 & I3 & I4); [lia|]. cbv zeta in *. repeat split.
        -- intros k Hk. destruct (Nat.eq_dec k i) as [->|N1]; [exact E|]. apply I1. lia.
        -- intros _. lia.
        -- lia.
        -- intros _ He. apply I4; lia.
    + cbv zeta. repeat split; intros; lia.
Qed.

Lemma count_to_app flag j a b : count_to flag j (a + b) = count_to flag j a + count_to flag (j + a) b.
Proof.
  revert j. induction a as [|a IH]; intros j; cbn [count_to plus].
  - rewrite Nat.add_0_r. reflexivity.
  - rewrite IH. replace (j + 1 + a) with (j + S a) by lia. lia.
Qed.

Lemma prepare_loop_right (LK : kernels K) far flag t n blockSize H P hV s i0 X0 v0 :
  hermitian o n P -> holds_upper n H P -> (forall m, m <= n -> hegv_right o LK m /\ order_right LK m) ->
  forall fuel candidates i j p p',
  i <= n -> j <= n -> s <= Nat.max i j -> arb p <= Nat.max i j -> i0 <= j ->
  candidates = count_to flag i0 (j - i0) -> candidates < blockSize ->
  consistent n P hV p -> clusters o far n P (pVecs p) s (Nat.max i j) ->
  (forall r c, r < n -> c < n -> c < s \/ Nat.max i j <= c -> pVecs p r c = X0 r c) ->
  (forall c, c < n -> c < s \/ Nat.max i j <= c -> pVals p c = v0 c) ->
  prepare_loop o LK fuel far flag t n blockSize H candidates i j p = Some p' ->
  consistent n P hV p' /\
  (exists e, clusters o far n P (pVecs p') s e /\ (e = n \/ blockSize <= count_to flag i0 (e - i0))) /\
  (forall r c, r < n -> c < s -> c < n -> pVecs p' r c = X0 r c) /\
  (forall c, c < s -> c < n -> pVals p' c = v0 c).
Proof.
  intros HP HH HL. induction fuel as [|f IH]; intros candidates i j p p' Hi Hj Hs Ha H0 Hc Hb HC HK HX Hv Hr;
    cbn [prepare_loop] in Hr; [discriminate|].
  destruct (Nat.ltb_spec j n) as [Hjn|Hjn].
  2:{ cbn [andb] in Hr. injection Hr as <-. split; [exact HC|]. split; [|split; intros; auto].
      exists (Nat.max i j). split; [exact HK|]. left. lia. }
  destruct (Nat.ltb_spec candidates blockSize); [|lia]. cbn [andb] in Hr. cbv zeta in Hr.
  assert (Hcnt : candidates + count_to flag j (i - j) = count_to flag i0 (Nat.max i j - i0)).
  { replace (Nat.max i j - i0) with ((j - i0) + (i - j)) by lia. rewrite count_to_app.
    replace (i0 + (j - i0)) with j by lia. lia. }
  rewrite Hcnt in Hr. set (e := Nat.max i j) in *.
  destruct (Nat.leb_spec blockSize (count_to flag i0 (e - i0))) as [Hbe|Hbe].
  { injection Hr as <-. split; [exact HC|]. split; [|split; intros; auto].
    exists e. split; [exact HK|]. right. exact Hbe. }
  destruct (find_sep_spec (far e) n n (e + 1)) as (F1 & F2 & F3 & F4); [lia|]. cbv zeta in *.
  set (i' := Nat.min (find_sep (far e) n (e + 1) n) n) in *.
  destruct (Nat.eq_dec e n) as [En|Nn].
  { destruct (Nat.ltb_spec 1 (i' - e)); [lia|].
    apply IH in Hr; auto; try lia.
    - replace (Nat.max i' e) with e by lia. exact HK.
    - intros r c Hr0 Hc0 [Ho|Ho]; apply HX; auto. lia.
    - intros c Hc0 [Ho|Ho]; apply Hv; auto. lia. }
  assert (Hei : e + 1 <= i') by (apply F2; lia).
  destruct (Nat.ltb_spec 1 (i' - e)) as [Hg1|Hg1].
  - destruct (rotate o LK t n H e i' p) as [p1|] eqn:ER; [|discriminate]. cbn [bind] in Hr.
    destruct (HL (i' - e)) as [HL1 HL2]; [lia|].
    destruct (rotate_block LK t n H P e i' p p1 HP HH HL1 HL2) as (D & w & R1 & R2 & R3 & R4 & R5 & R6 & R7); auto; [lia|].
    assert (Hkeep : forall r c, r < n -> c < n -> c < e \/ i' <= c -> pVecs p1 r c = pVecs p r c).
    { intros r c Hr0 Hc0 Ho. rewrite (R3 r c Hr0 Hc0). apply mul_block_out; assumption. }
    assert (HC1 : consistent n P hV p1).
    { destruct HC as (C1 & C2 & C3). split; [|split].
      - rewrite R3, R4, C1. rewrite (mulA o L). reflexivity.
      - unfold gram in *. rewrite R4. rewrite (adjM o L). rewrite <- (mulA o L).
        rewrite (mulA o L _ _ _ _ (adj o (rot o p))). rewrite C2. rewrite (mul_1_l o L).
        apply block_unitary; [lia|exact R1].
      - intros c Hc0. destruct ((e <=? c) && (c <? i')) eqn:Ec.
        + apply in_range in Ec. rewrite R6, R7 by exact Ec. unfold diag. rewrite Nat.eqb_refl. reflexivity.
        + apply out_range in Ec. rewrite R5 by exact Ec. rewrite C3 by exact Hc0.
          apply form_cols; intros r Hr0; symmetry; apply Hkeep; assumption. }
    apply IH in Hr; auto; try lia.
    + replace (Nat.max i' e) with i' by lia. apply cl_add with (i := e).
      * apply (clusters_ext far n P (pVecs p)); [|exact HK]. intros r c Hr0 Hc0. symmetry. apply Hkeep; lia.
      * lia.
      * lia.
      * intros c d Hc0 Hd0 N1. rewrite R7 by assumption. unfold diag. destruct (Nat.eqb_spec (c - e) (d - e)); [lia|reflexivity].
      * intros k Hk. apply F1. lia.
      * intros He. apply F4; lia.
    + intros r c Hr0 Hc0 Ho. rewrite Hkeep by lia. apply HX; lia.
    + intros c Hc0 Ho. rewrite R5 by lia. apply Hv; lia.
  - assert (E1 : i' = e + 1) by lia.
    apply IH in Hr; auto; try lia.
    + replace (Nat.max i' e) with i' by lia. apply cl_add with (i := e).
      * exact HK.
      * lia.
      * lia.
      * intros c d Hc0 Hd0 N1. lia.
      * intros k Hk. lia.
      * intros He. apply F4; lia.
    + intros r c Hr0 Hc0 Ho. apply HX; lia.
    + intros c Hc0 Ho. apply Hv; lia.
Qed.

Lemma prepare_loop_ends (LK : kernels K) far flag t n blockSize H :
  (forall m aH, m <= n -> solve_H_RR o LK t m aH None <> None) ->
  forall fuel candidates i j p, i <= n -> j <= n -> n - Nat.max i j + 2 <= fuel ->
  prepare_loop o LK fuel far flag t n blockSize H candidates i j p <> None.
Proof.
  intros HS. induction fuel as [|f IH]; intros candidates i j p Hi Hj Hf; [lia|].
  cbn [prepare_loop]. destruct (Nat.ltb_spec j n) as [Hjn|Hjn]; [|cbn [andb]; discriminate].
  destruct (candidates <? blockSize); cbn [andb]; [|discriminate]. cbv zeta.
  destruct (blockSize <=? _); [discriminate|]. set (e := Nat.max i j) in *.
  destruct (find_sep_spec (far e) n n (e + 1)) as (F1 & F2 & F3 & F4); [lia|]. cbv zeta in *.
  set (i' := Nat.min (find_sep (far e) n (e + 1) n) n) in *.
  assert (G : forall c p1, prepare_loop o LK f far flag t n blockSize H c i' e p1 <> None).
  { intros c p1. destruct (Nat.eq_dec e n) as [En|Nn].
    - destruct f; [lia|]. cbn [prepare_loop]. destruct (Nat.ltb_spec e n); [lia|]. cbn [andb]. discriminate.
    - apply IH; lia. }
  destruct (1 <? i' - e); [|apply G].
  unfold rotate. destruct (solve_H_RR o LK t (i' - e) _ None) as [d|] eqn:E.
  - cbn [bind]. apply G.
  - exfalso. apply (HS (i' - e)) in E; [exact E|lia].
Qed.

(** ** C50: the vectors prepared for the next block. *)
Theorem C50_prepared_vectors (LK : kernels K) far flag t n i0 blockSize H P G hV p p' :
  hermitian o n P -> holds_upper n H P -> (forall m, m <= n -> hegv_right o LK m /\ order_right LK m) ->
  orthonormal_in o n n G hV -> arb p <= n -> i0 < n -> 0 < blockSize -> consistent n P hV p ->
  prepare_vecs o LK true far flag t n i0 blockSize H p = Some p' ->
  (** still the vectors hV rotated by a unitary matrix, with their Rayleigh quotients *)
  consistent n P hV p' /\ orthonormal_in o n n G (pVecs p') /\
  (** the vectors before i0 and the ones already prepared are not changed *)
  let s := Nat.max i0 (arb p) in
  (forall r c, r < n -> c < s -> c < n -> pVecs p' r c = pVecs p r c) /\
  (forall c, c < s -> c < n -> pVals p' c = pVals p c) /\
  (** clusters cover the basis, or what is needed to have blockSize unconverged pairs *)
  exists e, clusters o far n P (pVecs p') s e /\ (e = n \/ blockSize <= count_to flag i0 (e - i0)).
Proof.
  intros HP HH HL HG Ha Hi0 Hb HC Hp. unfold prepare_vecs in Hp.
  destruct (Nat.eqb_spec n 0); [lia|]. cbn [negb orb] in Hp.
  destruct (Nat.eqb_spec blockSize 0); [lia|].
  replace (Nat.min (arb p) n) with (arb p) in Hp by lia.
  destruct (prepare_loop_right LK far flag t n blockSize H P hV (Nat.max (arb p) i0) i0 (pVecs p) (pVals p) HP HH HL
    _ _ _ _ _ _ Ha (Nat.lt_le_incl _ _ Hi0) (le_n _) (Nat.le_max_l _ _) (le_n _)
    (eq_sym (f_equal (count_to flag i0) (Nat.sub_diag i0))) Hb HC (cl_nil o far n P _ _)
    (fun _ _ _ _ _ => eq_refl) (fun _ _ _ => eq_refl) Hp) as (R1 & R2 & R3 & R4).
  split; [exact R1|]. split.
  { destruct R1 as (C1 & C2 & _). unfold orthonormal_in, form, gram in *. rewrite C1.
    transitivity (mul o n (adj o (rot o p')) (mul o n (mul o n (adj o hV) (mul o n G hV)) (rot o p'))).
    - rewrite (adjM o L). rewrite !(mulA o L). reflexivity.
    - rewrite HG. rewrite (mul_1_l o L). exact C2. }
  cbv zeta. rewrite (Nat.max_comm i0). split; [exact R3|]. split; [exact R4|exact R2].
Qed.

(** The preparation ends, whatever the measured quantities are. *)
Theorem C50_preparation_ends (LK : kernels K) refined far flag t n i0 blockSize H p :
  (forall m aH, m <= n -> solve_H_RR o LK t m aH None <> None) -> i0 <= n ->
  exists p', prepare_vecs o LK refined far flag t n i0 blockSize H p = Some p'.
Proof.
  intros HS Hi. unfold prepare_vecs.
  destruct (negb refined || (n =? 0)); [eauto|]. destruct (blockSize =? 0); [eauto|].
  destruct (prepare_loop o LK (n + 2) far flag t n blockSize H 0 (Nat.min (arb p) n) i0 p) as [p'|] eqn:E; [eauto|].
  exfalso. revert E. apply prepare_loop_ends; auto; lia.
Qed.

(** ** C50: the factorization grows with the basis. *)
Theorem C50_update_Q (f : ortho K) N A V BV W Q R tau basisSize blockSize Q' R' m :
  meq N (basisSize + blockSize) W (mul o N A V) ->
  ortho_right o N f -> 0 < blockSize ->
  factored o N basisSize A BV V tau Q R -> gram o N basisSize Q (one o) ->
  update_Q o f N BV W Q R tau basisSize blockSize basisSize = Some (Q', R', m) ->
  factored o N m A BV V tau Q' R' /\ gram o N m Q' (one o) /\ basisSize <= m <= basisSize + blockSize.
Proof.
  intros HW Hf Hb HF HQ Hu. unfold update_Q in Hu. destruct (Nat.eqb_spec blockSize 0); [lia|].
  match type of Hu with context[f N ?X R] => set (Q1 := X) in Hu end.
  destruct (f N Q1 R basisSize (basisSize + blockSize)) as [[[Q2 R2] m2]|] eqn:E; [|discriminate].
  cbn [bind] in Hu. injection Hu as <- <- <-.
  destruct (Hf _ _ _ _ _ _ _ E) as (H1 & H2 & H3 & H4 & H5).
  assert (HQ1 : forall r c, c < basisSize -> Q1 r c = Q r c).
  { intros r c Hc. unfold Q1. rewrite (proj2 (out_range basisSize (basisSize + blockSize) c)) by lia. reflexivity. }
  split; [|split; [|exact H1]].
  - intros r c Hr Hc. destruct (Nat.lt_ge_cases c basisSize) as [Hc0|Hc0].
    + rewrite (HF r c Hr Hc0). unfold mul. rewrite (sum_window m2 0 basisSize).
      * cbn [plus]. apply sum_ext. intros l Hl. destruct (H2 r l Hl) as [-> _]. rewrite HQ1 by exact Hl.
        rewrite (proj2 (out_range basisSize (basisSize + blockSize) l)) by lia. cbn [andb].
        destruct (H2 l c Hc0) as [_ ->]. reflexivity.
      * lia.
      * intros l Hl Ho. rewrite (proj2 (in_range basisSize (basisSize + blockSize) l)) by lia.
        destruct (Nat.ltb_spec c basisSize); [|lia]. cbn [andb]. ring.
    + assert (E1 : Q1 r c = msub o (mul o N A V) (scale o tau BV) r c).
      { unfold Q1. rewrite (proj2 (in_range basisSize (basisSize + blockSize) c)) by lia.
        unfold msub, scale. rewrite HW by lia. ring. }
      rewrite <- E1. rewrite (H3 r c) by lia. unfold mul. symmetry. rewrite (sum_window m2 0 (c + 1)).
      * cbn [plus]. apply sum_ext. intros l Hl. destruct (Nat.ltb_spec c basisSize); [lia|]. rewrite andb_false_r. reflexivity.
      * lia.
      * intros l Hl Ho. destruct (Nat.ltb_spec c basisSize); [lia|]. rewrite andb_false_r.
        rewrite H4 by lia. ring.
  - apply H5. unfold gram in *. intros r c Hr Hc. rewrite <- (HQ r c Hr Hc).
    unfold mul, adj. apply sum_ext. intros l Hl. rewrite !HQ1 by assumption. reflexivity.
Qed.

(** Initial guesses that enter after a restart: the factorization grows with them. There
    is no mass matrix here, see [guess_Q]. *)
Theorem C50_guesses (f : ortho K) N A V W Q R tau basisSize numNew Q' R' :
  meq N (basisSize + numNew) W (mul o N A V) -> ortho_right o N f ->
  factored o N basisSize A V V tau Q R -> gram o N basisSize Q (one o) ->
  guess_Q o f N V W Q R tau basisSize numNew = Some (Q', R') ->
  factored o N (basisSize + numNew) A V V tau Q' R' /\ gram o N (basisSize + numNew) Q' (one o).
Proof.
  intros HW Hf HF HQ Hg. unfold guess_Q in Hg.
  destruct (update_Q o f N V W Q R tau basisSize numNew basisSize) as [[[Q2 R2] m]|] eqn:E; [|discriminate].
  cbn [bind] in Hg. destruct (Nat.eqb_spec (basisSize + numNew) m) as [<-|]; [|discriminate].
  injection Hg as <- <-.
  destruct (Nat.eq_dec numNew 0) as [->|Hn].
  - unfold update_Q in E. rewrite Nat.eqb_refl in E. injection E as <- <- _. rewrite Nat.add_0_r. auto.
  - destruct (C50_update_Q f N A V V W Q R tau basisSize numNew Q2 R2 (basisSize + numNew)) as (F1 & F2 & _); auto. lia.
Qed.
End Proofs.
