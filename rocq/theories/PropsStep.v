(** C52: what the solver holds after any history of steps. *)
From Coq Require Import List Arith Bool Lia Field Setoid Morphisms.
From Verif Require Import Base ProjModel SpecProj MatAlg ExtractModel SpecExtract PropsExtract
  ReprojModel SpecReproj PropsReproj StepModel SpecStep.
Import ListNotations.

Section Props.
Context {K : Type} (o : scal K) (L : laws o).
Notation mx := (@mx K).
Add Field Kstep : (l_field o L).

Lemma meq_all (A B : mx) : (forall m n, meq m n A B) -> forall i j, A i j = B i j.
Proof. intros H i j. apply (H (S i) (S j)); lia. Qed.

(** (V C)' G (V D) = C' (V' G V) D *)
Lemma form_mul N n V C D G i j : form o N (mul o n V C) G (mul o n V D) i j = form o n C (form o N V G V) D i j.
Proof.
  revert i j. apply meq_all. intros p q. unfold form. rewrite (adjM o L). rewrite !(mulA o L). reflexivity.
Qed.
Lemma form_coef N n B V C D i j : orthonormal_in o N n B V ->
  form o N (mul o n V C) B (mul o n V D) i j = mul o n (adj o C) D i j.
Proof.
  intros HV. rewrite form_mul. revert i j. apply meq_all. intros p q. unfold orthonormal_in in HV. unfold form at 1.
  rewrite HV. rewrite (mul_1_l o L). reflexivity.
Qed.
Lemma form_mul_r N n X G V D i j : form o N X G (mul o n V D) i j = mul o n (form o N X G V) D i j.
Proof. revert i j. apply meq_all. intros p q. unfold form. rewrite !(mulA o L). reflexivity. Qed.
Lemma form_mul_l N n V C G Y i j : form o N (mul o n V C) G Y i j = mul o n (adj o C) (form o N V G Y) i j.
Proof. revert i j. apply meq_all. intros p q. unfold form. rewrite (adjM o L). rewrite !(mulA o L). reflexivity. Qed.
Lemma form_sym N G X Y i j : hermitian o N G -> form o N X G Y i j = kconj o (form o N Y G X j i).
Proof.
  intros HG. change (form o N X G Y i j = adj o (form o N Y G X) i j). revert i j. apply meq_all. intros p q.
  unfold hermitian in HG. unfold form. rewrite !(adjM o L), (adjK o L), HG. rewrite (mulA o L). reflexivity.
Qed.
Lemma form_ext N G X Y X' Y' i j i' j' : (forall r, r < N -> X r i = X' r i') -> (forall r, r < N -> Y r j = Y' r j') ->
  form o N X G Y i j = form o N X' G Y' i' j'.
Proof.
  intros H1 H2. unfold form, mul, adj. apply sum_ext. intros l Hl. rewrite H1 by exact Hl. f_equal.
  apply sum_ext. intros m Hm. rewrite H2 by exact Hm. reflexivity.
Qed.
Lemma mul_col N A X X' r j j' : (forall r, r < N -> X r j = X' r j') -> mul o N A X r j = mul o N A X' r j'.
Proof. intros H. unfold mul. apply sum_ext. intros l Hl. rewrite H by exact Hl. reflexivity. Qed.

Lemma pair_right_ext N A B X Y j j' th res : (forall r, r < N -> X r j = Y r j') ->
  pair_right o N A B X j th res -> pair_right o N A B Y j' th res.
Proof.
  intros H (P1 & P2 & P3). split; [|split].
  - rewrite <- P1. symmetry. apply form_ext; exact H.
  - rewrite <- P2. symmetry. apply form_ext; exact H.
  - rewrite P3. unfold residual2. apply sum_ext. intros r Hr. cbv zeta.
    rewrite !(mul_col N _ X Y r j j') by exact H. reflexivity.
Qed.

Lemma coef_gram n X j : gram o n n X (one o) -> j < n -> mul o n (adj o X) X j j = k1 o.
Proof. intros H Hj. rewrite (H j j Hj Hj). unfold one. rewrite Nat.eqb_refl. reflexivity. Qed.

Lemma eigen_gram n P w X : eigen_of o n P (one o) w X -> gram o n n X (one o).
Proof.
  intros [_ H]. unfold orthonormal_in, form in H. unfold gram. rewrite (mul_1_l o L) in H. exact H.
Qed.

(** ** C52: every candidate of the basis is a Ritz pair with its residual. *)
Lemma good_candidate N A B nc s j : good o N A B nc s -> j < sn s ->
  pair_right o N A B (mul o (sn s) (sV s) (sX s)) j (sth s j)
    (norm2 o N (resid o (mul o (sn s) (sW s) (sX s)) (mul o (sn s) (sBV s) (sX s)) (sth s) j)) /\
  ritz_pairs o N (sn s) A B (sV s) (mul o (sn s) (sV s) (sX s)) (sth s) j /\
  (forall i, i < nc + slk s -> form o N (sE s) B (mul o (sn s) (sV s) (sX s)) i j = k0 o).
Proof.
  intros (HW & HB & HV & HE & HO & HH & HX & HL) Hj. assert (HG := eigen_gram _ _ _ _ HX). destruct HX as [HX _].
  set (n := sn s) in *. set (V := sV s) in *. set (X := sX s) in *.
  assert (R : forall c, c < n -> form o N V A (mul o n V X) c j = kmul o (X c j) (sth s j)).
  { intros c Hc. rewrite form_mul_r. rewrite (HX c j Hc Hj). rewrite (mul_diag_r o L) by exact Hj.
    f_equal. apply (mul_1_l o L n n); assumption. }
  split; [split; [|split]|split].
  - rewrite form_coef by exact HV. apply coef_gram; assumption.
  - rewrite form_mul_l. transitivity (kmul o (mul o n (adj o X) X j j) (sth s j)).
    + unfold mul at 1 3. rewrite <- (sum_mulr o L). apply sum_ext. intros l Hl. rewrite R by exact Hl. ring.
    + rewrite coef_gram by assumption. ring.
  - unfold norm2, residual2. apply sum_ext. intros r Hr. cbv zeta. unfold resid.
    assert (E1 : mul o n (sW s) X r j = mul o N A (mul o n V X) r j).
    { rewrite (mul_assoc o L). unfold mul at 1 2. apply sum_ext. intros l Hl. rewrite (HW r l Hr Hl). reflexivity. }
    assert (E2 : mul o n (sBV s) X r j = mul o N B (mul o n V X) r j).
    { rewrite (mul_assoc o L). unfold mul at 1 2. apply sum_ext. intros l Hl. rewrite (HB r l Hr Hl). reflexivity. }
    rewrite E1, E2. reflexivity.
  - intros c Hc. rewrite R by exact Hc. f_equal. rewrite form_mul_r.
    unfold orthonormal_in in HV. rewrite (mul_meq o n n n _ _ _ _ HV (meq_refl n n X) c j Hc Hj).
    symmetry. apply (mul_1_l o L n n); assumption.
  - intros i Hi. rewrite form_mul_r. unfold mul. apply sum_zero; [exact L|]. intros l Hl.
    rewrite (HO i l Hi Hl). ring.
Qed.

(** ** Growing the basis *)
Lemma solve_good (LK : kernels K) t n H P w X :
  hermitian o n P -> holds_upper n H P -> hegv_right o LK n -> order_right LK n ->
  solve_H_RR o LK t n H None = Some (w, X) -> eigen_of o n P (one o) w X.
Proof.
  intros HP HH h1 h2 E. exact (solve_H_RR_right o L LK t n H P None w X HP HH h1 h2 E).
Qed.

Lemma grow_good (LK : kernels K) (f : block_ortho K) N A B nc t s b1 bs D s' :
  hermitian o N A -> block_right o N B f -> (forall m, hegv_right o LK m /\ order_right LK m) ->
  b1 = 0 \/ b1 = sn s -> good o N A B nc s -> grow o LK N A nc f t s b1 bs D = Some s' -> good o N A B nc s'.
Proof.
  intros HA Hf HL Hb (HW & HB & HV & HE & HO & HH & HX & HL') E.
  unfold grow in E. cbv zeta in E.
  set (V1 := fun r j => if (b1 <=? j) && (j <? b1 + bs) then D r (j - b1) else sV s r j) in E.
  destruct (f V1 (sBV s) b1 (b1 + bs) (sE s) (nc + slk s)) as [[[V2 BV2] b]|] eqn:Ef; [|discriminate].
  cbn [bind] in E. destruct (Hf _ _ _ _ _ _ _ _ _ Ef) as (Hbb & F1 & F2 & F3).
  set (W2 := fun r j => if (b1 <=? j) && (j <? b) then mul o N A V2 r j else sW s r j) in E.
  set (H2 := fun i j => if (b1 <=? j) && (j <? b) && (i <=? j) then mul o N (adj o V2) W2 i j else sH s i j) in E.
  destruct (solve_H_RR o LK t b H2 None) as [[w X]|] eqn:Es; [|discriminate].
  cbn [bind fst snd] in E. injection E as <-.
  assert (B1 : b1 <= sn s) by lia.
  assert (V1s : forall r j, j < b1 -> V1 r j = sV s r j).
  { intros r j Hj. unfold V1. replace (b1 <=? j) with false by (symmetry; apply Nat.leb_gt; lia). reflexivity. }
  assert (V2s : forall r j, j < b1 -> V2 r j = sV s r j).
  { intros r j Hj. destruct (F1 r j Hj) as [-> _]. apply V1s. exact Hj. }
  assert (B2s : forall r j, j < b1 -> BV2 r j = sBV s r j) by (intros r j Hj; apply (F1 r j Hj)).
  assert (O1 : orthonormal_in o N b1 B V1).
  { intros i j Hi Hj. rewrite (form_ext N B V1 V1 (sV s) (sV s) i j i j) by (intros; apply V1s; assumption). apply HV; lia. }
  assert (O2 : orthogonal o N B (nc + slk s) b1 (sE s) V1).
  { intros i j Hi Hj. rewrite (form_ext N B (sE s) V1 (sE s) (sV s) i j i j) by (intros; auto). apply HO; lia. }
  destruct (F3 O1 HE O2) as [G1 G2].
  assert (GW : meq N b W2 (mul o N A V2)).
  { intros r j Hr Hj. unfold W2. destruct ((b1 <=? j) && (j <? b)) eqn:C; [reflexivity|].
    apply out_range in C. rewrite (HW r j Hr) by lia. apply mul_col. intros r' Hr'. symmetry. apply V2s. lia. }
  assert (GH : holds_upper b H2 (form o N V2 A V2)).
  { intros i j Hj Hij. unfold H2. replace (i <=? j) with true by (symmetry; apply Nat.leb_le; exact Hij). rewrite andb_true_r.
    destruct ((b1 <=? j) && (j <? b)) eqn:C.
    - unfold form. unfold mul at 1 2. apply sum_ext. intros l Hl. rewrite (GW l j Hl Hj). reflexivity.
    - apply out_range in C. rewrite (HH i j) by lia. apply form_ext; intros r Hr; symmetry; apply V2s; lia. }
  unfold good. cbn [sn sV sW sBV sH sX sth slk sE sval sres].
  split; [exact GW|]. split.
  { intros r j Hr Hj. destruct (Nat.lt_ge_cases j b1) as [C|C].
    - rewrite B2s by exact C. rewrite (HB r j Hr) by lia. apply mul_col. intros r' Hr'. symmetry. apply V2s. exact C.
    - apply F2; [exact Hr|lia]. }
  split; [exact G1|]. split; [exact HE|]. split; [exact G2|]. split; [exact GH|]. split; [|exact HL'].
  destruct (HL b) as [h1 h2]. exact (solve_good LK t b H2 _ w X (form_herm o L N b A V2 HA) GH h1 h2 Es).
Qed.

Lemma reproject_good (LK : kernels K) N A B nc t s s' :
  hermitian o N A -> (forall m, hegv_right o LK m /\ order_right LK m) ->
  good o N A B nc s -> reproject o LK N t s = Some s' -> good o N A B nc s'.
Proof.
  intros HA HL (HW & HB & HV & HE & HO & HH & HX & HL') E. unfold reproject in E. cbv zeta in E.
  set (H2 := fun i j => if (j <? sn s) && (i <=? j) then mul o N (adj o (sV s)) (sW s) i j else sH s i j) in E.
  destruct (solve_H_RR o LK t (sn s) H2 None) as [[w X]|] eqn:Es; [|discriminate].
  cbn [bind fst snd] in E. injection E as <-.
  assert (GH : holds_upper (sn s) H2 (form o N (sV s) A (sV s))).
  { intros i j Hj Hij. unfold H2. replace (j <? sn s) with true by (symmetry; apply Nat.ltb_lt; exact Hj).
    replace (i <=? j) with true by (symmetry; apply Nat.leb_le; exact Hij). cbn [andb].
    unfold form. unfold mul at 1 2. apply sum_ext. intros l Hl. rewrite (HW l j Hl Hj). reflexivity. }
  unfold good. cbn [sn sV sW sBV sH sX sth slk sE sval sres].
  repeat (split; [assumption|]). split; [|exact HL'].
  destruct (HL (sn s)) as [h1 h2]. exact (solve_good LK t _ H2 _ w X (form_herm o L N _ A (sV s) HA) GH h1 h2 Es).
Qed.

(** ** The retained vectors *)
Lemma retain_right (vorth : vec_ortho K) skip small prev n ip limit : vec_right o vorth ->
  forall cnt i retained X X' np, gram o n (ip + retained) X (one o) ->
  retain_vecs vorth skip small prev n ip limit cnt i retained X = Some (X', np) ->
  retained <= np /\ gram o n (ip + np) X' (one o) /\ (forall r j, j < ip + retained -> X' r j = X r j).
Proof.
  intros Hv. induction cnt as [|cnt IH]; intros i retained X X' np HG E; cbn [retain_vecs] in E.
  { injection E as <- <-. auto. }
  destruct ((retained <? limit) && (ip + retained <? n)); [|injection E as <- <-; auto].
  destruct (skip i); [exact (IH _ _ _ _ _ HG E)|].
  destruct (vorth n X (ip + retained) (fun r => prev r i)) as [[v rr]|] eqn:Ev; [|discriminate]. cbn [bind] in E.
  destruct (small retained rr); [exact (IH _ _ _ _ _ HG E)|].
  destruct (Hv _ _ _ _ _ _ Ev HG) as [V1 V2].
  set (X1 := fun r j => if j =? ip + retained then v r else X r j) in E.
  assert (X1s : forall r j, j < ip + retained -> X1 r j = X r j).
  { intros r j Hj. unfold X1. replace (j =? ip + retained) with false by (symmetry; apply Nat.eqb_neq; lia). reflexivity. }
  assert (X1v : forall r, X1 r (ip + retained) = v r).
  { intros r. unfold X1. rewrite Nat.eqb_refl. reflexivity. }
  assert (G1 : gram o n (ip + (retained + 1)) X1 (one o)).
  { intros a b Ha Hb. unfold mul, adj.
    destruct (Nat.eq_dec a (ip + retained)) as [->|Na]; destruct (Nat.eq_dec b (ip + retained)) as [->|Nb].
    - rewrite (sum_ext o n _ (fun r => kmul o (kconj o (v r)) (v r))) by (intros; rewrite X1v; reflexivity).
      rewrite V1. unfold one. rewrite Nat.eqb_refl. reflexivity.
    - rewrite (sum_ext o n _ (fun r => kconj o (kmul o (kconj o (X r b)) (v r)))).
      + rewrite <- (sum_conj o L). rewrite V2 by lia. rewrite (l_conj_0 o L).
        unfold one. replace (ip + retained =? b) with false by (symmetry; apply Nat.eqb_neq; lia). reflexivity.
      + intros r Hr. rewrite X1v, X1s by lia. rewrite (l_conj_mul o L), (l_conj_conj o L). ring.
    - rewrite (sum_ext o n _ (fun r => kmul o (kconj o (X r a)) (v r))).
      + rewrite V2 by lia. unfold one. replace (a =? ip + retained) with false by (symmetry; apply Nat.eqb_neq; lia). reflexivity.
      + intros r Hr. rewrite X1v, X1s by lia. reflexivity.
    - rewrite (sum_ext o n _ (fun r => kmul o (adj o X a r) (X r b))).
      + apply HG; lia.
      + intros r Hr. rewrite !X1s by lia. reflexivity. }
  destruct (IH _ _ _ _ _ G1 E) as (P1 & P2 & P3).
  split; [lia|]. split; [exact P2|]. intros r j Hj. rewrite P3 by lia. apply X1s. exact Hj.
Qed.

(** ** The restart *)
Lemma selected_gram n rs ip np ipB perm X : gram o n (ipB + np) X (one o) -> selects n rs ip np ipB perm ->
  forall i j, i < rs -> j < rs -> mul o n (adj o X) X (perm i) (perm j) = one o i j.
Proof.
  intros HG (S1 & S2 & S3 & S4 & S5) i j Hi Hj.
  assert (B : forall k, k < rs -> perm k < ipB + np).
  { intros k Hk. destruct (Nat.lt_ge_cases k ip) as [C|C]; [specialize (S5 k Hk (or_introl C)); lia|].
    destruct (Nat.lt_ge_cases k (ip + np)) as [C'|C']; [|specialize (S5 k Hk (or_intror C')); lia].
    replace k with (ip + (k - ip)) by lia. rewrite S4 by lia. lia. }
  rewrite (HG _ _ (B i Hi) (B j Hj)). unfold one.
  destruct (Nat.eqb_spec (perm i) (perm j)) as [e|ne], (Nat.eqb_spec i j) as [e'|ne']; try reflexivity.
  - exfalso. apply ne'. exact (S3 i j Hi Hj e).
  - subst. contradiction.
Qed.

Lemma restart_common (LK : kernels K) N A B nc t (changed : bool) s X rs ip np ipB perm hperm H2 w X2 :
  hermitian o N A -> hermitian o N B -> (forall m, hegv_right o LK m /\ order_right LK m) ->
  good o N A B nc s -> gram o (sn s) (ipB + np) X (one o) -> (forall r j, j < ipB -> X r j = sX s r j) ->
  selects (sn s) rs ip np ipB perm -> permutes rs hperm -> together ip np rs hperm ->
  restart_RR o LK t true changed (sn s) rs np ip (sH s) (cols X perm) (fun j => sth s (perm j)) hperm None = Some (H2, w, X2) ->
  let Vn := mul o (sn s) (sV s) (cols X perm) in
  meq N rs (mul o (sn s) (sW s) (cols X perm)) (mul o N A Vn) /\
  meq N rs (mul o (sn s) (sBV s) (cols X perm)) (mul o N B Vn) /\
  orthonormal_in o N rs B Vn /\
  orthogonal o N B (nc + slk s) rs (sE s) Vn /\
  holds_upper rs H2 (form o N Vn A Vn) /\
  eigen_of o rs (form o N Vn A Vn) (one o) w X2 /\
  (changed = false -> forall j, j < rs -> kept ip np (hperm j) -> w j = sth s (perm (hperm j))).
Proof.
  intros HA HBh HL Hgood HG HXs Hsel Hp Ht E Vn.
  assert (Hg := Hgood). destruct Hg as (HW & HB & HV & HE & HO & HH & HX & HL').
  set (n := sn s) in *. set (V := sV s) in *.
  assert (ON : orthonormal_in o N rs B Vn).
  { intros i j Hi Hj. unfold Vn. rewrite form_coef by exact HV.
    exact (selected_gram n rs ip np ipB perm X HG Hsel i j Hi Hj). }
  assert (Col : forall j, j < rs -> kept ip np j -> perm j < n /\ forall r, r < N -> Vn r j = mul o n V (sX s) r (perm j)).
  { intros j Hj Hk. destruct Hsel as (S1 & S2 & S3 & S4 & S5). assert (Hb := S5 j Hj Hk). split; [lia|].
    intros r Hr. unfold Vn, mul, cols. apply sum_ext. intros l Hl. rewrite HXs by exact Hb. reflexivity. }
  assert (HR : forall j, j < rs -> kept ip np j ->
             ritz_pairs o N n A B V Vn (fun j => sth s (perm j)) j /\ orthonormal_at o N rs B Vn j).
  { intros j Hj Hk. split; [|intros i Hi; exact (ON i j Hi Hj)].
    destruct (Col j Hj Hk) as [Hpj Hcol]. destruct (good_candidate N A B nc s (perm j) Hgood Hpj) as (_ & Rz & _).
    intros c Hc. rewrite !(form_ext N _ V Vn V (mul o n V (sX s)) c j c (perm j)) by auto.
    apply Rz. exact Hc. }
  assert (Hip : ip + np <= rs) by (destruct Hsel; tauto).
  assert (HGr : meq rs rs (opt o None) (form o N Vn B Vn)).
  { intros i j Hi Hj. symmetry. exact (ON i j Hi Hj). }
  destruct (C51_restart_RR o L LK t true changed N n rs np ip A B V (cols X perm) (sH s)
              (fun j => sth s (perm j)) hperm None H2 w X2 HA HH Hip HR HBh HGr Hp Ht (fun m _ => HL m) E) as (R1 & R2 & R3).
  split; [|split; [|split; [exact ON|split; [|split; [exact R1|split]]]]].
  - unfold Vn. rewrite (mulA o L). rewrite HW. reflexivity.
  - unfold Vn. rewrite (mulA o L). rewrite HB. reflexivity.
  - intros i j Hi Hj. unfold Vn. rewrite form_mul_r. unfold mul. apply sum_zero; [exact L|]. intros l Hl.
    rewrite (HO i l Hi Hl). ring.
  - destruct R2 as [R21 R22]. fold Vn in R21, R22. split.
    + unfold orthonormal_in in ON. rewrite ON in R21. exact R21.
    + unfold orthonormal_in in ON, R22 |- *. unfold form at 1 in R22. rewrite ON in R22. exact R22.
  - intros Hc j Hj Hk. apply (R3 Hc j Hj Hk).
Qed.

Lemma retained_good (vorth : vec_ortho K) N A B nc s skip small prev ipB limit cnt np X rs ip perm : vec_right o vorth ->
  good o N A B nc s -> selects (sn s) rs ip np ipB perm ->
  retain_vecs vorth skip small prev (sn s) ipB limit cnt 0 0 (sX s) = Some (X, np) ->
  gram o (sn s) (ipB + np) X (one o) /\ (forall r j, j < ipB -> X r j = sX s r j).
Proof.
  intros Hv Hg (S1 & _) Er. destruct Hg as (_ & _ & _ & _ & _ & _ & HX & _).
  apply eigen_gram in HX.
  assert (G0 : gram o (sn s) (ipB + 0) (sX s) (one o)).
  { intros i j Hi Hj. apply HX; lia. }
  destruct (retain_right vorth skip small prev (sn s) ipB limit Hv cnt 0 0 _ _ _ G0 Er) as (_ & P2 & P3).
  split; [exact P2|]. intros r j Hj. apply P3. lia.
Qed.

Lemma restart_soft_good (LK : kernels K) (vorth : vec_ortho K) N A B nc t changed s skip small prev ipB limit cnt np X ip perm hperm s' :
  hermitian o N A -> hermitian o N B -> (forall m, hegv_right o LK m /\ order_right LK m) -> vec_right o vorth ->
  good o N A B nc s ->
  retain_vecs vorth skip small prev (sn s) ipB limit cnt 0 0 (sX s) = Some (X, np) ->
  selects (sn s) (ip + np) ip np ipB perm -> permutes (ip + np) hperm -> together ip np (ip + np) hperm ->
  restart_soft o LK t changed s X ip np perm hperm = Some s' -> good o N A B nc s'.
Proof.
  intros HA HB HL Hv Hg Er Hsel Hp Ht E.
  destruct (retained_good vorth N A B nc s skip small prev ipB limit cnt np X _ ip perm Hv Hg Hsel Er) as [G1 G2].
  unfold restart_soft in E.
  destruct (restart_RR o LK t true changed (sn s) (ip + np) np ip (sH s) (cols X perm) (fun j => sth s (perm j)) hperm None)
    as [[[H2 w] X2]|] eqn:Es; [|discriminate].
  cbn [bind] in E. injection E as <-.
  destruct (restart_common LK N A B nc t changed s X (ip + np) ip np ipB perm hperm H2 w X2 HA HB HL Hg G1 G2 Hsel Hp Ht Es)
    as (F1 & F2 & F3 & F4 & F5 & F6 & _).
  destruct Hg as (HW & HBV & HV & HE & HO & HH & HX & HL').
  unfold good. cbn [sn sV sW sBV sH sX sth slk sE sval sres].
  repeat (split; [assumption|]). exact HL'.
Qed.

(** ** Locking *)
Lemma in_failed ok m i : In i (failed_of ok m) <-> i < m /\ ok i = false.
Proof.
  unfold failed_of. rewrite filter_In, in_seq. destruct (ok i); cbn; intuition (try lia; try discriminate).
Qed.
Lemma in_passed ok m i : In i (passed_of ok m) <-> i < m /\ ok i = true.
Proof. unfold passed_of. rewrite filter_In, in_seq. intuition lia. Qed.
Lemma nodup_failed ok m : NoDup (failed_of ok m). Proof. apply NoDup_filter, seq_NoDup. Qed.
Lemma nodup_passed ok m : NoDup (passed_of ok m). Proof. apply NoDup_filter, seq_NoDup. Qed.

Lemma nth_failed ok m i : i < length (failed_of ok m) -> nth i (failed_of ok m) 0 < m /\ ok (nth i (failed_of ok m) 0) = false.
Proof. intros H. apply in_failed. apply nth_In. exact H. Qed.
Lemma nth_passed ok m i : i < length (passed_of ok m) -> nth i (passed_of ok m) 0 < m /\ ok (nth i (passed_of ok m) 0) = true.
Proof. intros H. apply in_passed. apply nth_In. exact H. Qed.

Lemma restart_lock_good (LK : kernels K) (vorth : vec_ortho K) N A B nc t changed s skip small prev ipB limit cnt np X ip numPacked ok perm hperm s' :
  hermitian o N A -> hermitian o N B -> (forall m, hegv_right o LK m /\ order_right LK m) -> vec_right o vorth ->
  good o N A B nc s ->
  retain_vecs vorth skip small prev (sn s) ipB limit cnt 0 0 (sX s) = Some (X, np) ->
  selects (sn s) (ip + np + numPacked) ip np ipB perm ->
  let rs := ip + np + length (failed_of ok numPacked) in
  permutes rs hperm -> together ip np rs hperm ->
  restart_lock o LK N nc t changed s X ip np numPacked ok perm hperm = Some s' -> good o N A B nc s'.
Proof.
  intros HA HB HL Hv Hg Er Hsel rs Hp Ht E.
  destruct (retained_good vorth N A B nc s skip small prev ipB limit cnt np X _ ip perm Hv Hg Hsel Er) as [G1 G2].
  unfold restart_lock in E. cbv zeta in E.
  set (left := ip + np) in *. set (fl := failed_of ok numPacked) in *. set (pl := passed_of ok numPacked) in *.
  set (idx := fun k => if k <? left then k else left + nth (k - left) fl 0) in E.
  assert (I0 : forall k, k < left -> idx k = k).
  { intros k Hk. unfold idx. replace (k <? left) with true by (symmetry; apply Nat.ltb_lt; exact Hk). reflexivity. }
  assert (I1 : forall k, left <= k -> idx k = left + nth (k - left) fl 0).
  { intros k Hk. unfold idx. replace (k <? left) with false by (symmetry; apply Nat.ltb_ge; exact Hk). reflexivity. }
  assert (I2 : forall k, left <= k -> k < rs -> left <= idx k < left + numPacked /\ ok (idx k - left) = false).
  { intros k Hk Hr. rewrite I1 by exact Hk. destruct (nth_failed ok numPacked (k - left)) as [P1 P2]; [fold fl; unfold rs in Hr; lia|].
    fold fl in P1, P2. replace (left + nth (k - left) fl 0 - left) with (nth (k - left) fl 0) by lia. split; [lia|exact P2]. }
  assert (Sel2 : selects (sn s) rs ip np ipB (fun k => perm (idx k))).
  { destruct Hsel as (S1 & S2 & S3 & S4 & S5). fold left in S2, S3, S5.
    assert (Hb : forall k, k < rs -> idx k < left + numPacked).
    { intros k Hk. destruct (Nat.lt_ge_cases k left) as [C|C]; [rewrite I0 by exact C; lia|]. apply I2; assumption. }
    split; [exact S1|]. split; [unfold rs, left; lia|]. split; [|split].
    - intros i j Hi Hj e. apply S3 in e; [|apply Hb; assumption|apply Hb; assumption].
      destruct (Nat.lt_ge_cases i left) as [Ci|Ci], (Nat.lt_ge_cases j left) as [Cj|Cj].
      + rewrite !I0 in e by assumption. exact e.
      + exfalso. destruct (I2 j Cj Hj) as [[P _] _]. rewrite <- e, I0 in P by assumption. lia.
      + exfalso. destruct (I2 i Ci Hi) as [[P _] _]. rewrite e, I0 in P by assumption. lia.
      + rewrite !I1 in e by assumption.
        assert (e' : nth (i - left) fl 0 = nth (j - left) fl 0) by lia.
        assert (i - left = j - left); [|lia].
        apply (Coq.Init.Logic.proj1 (NoDup_nth fl 0) (nodup_failed ok numPacked)); [unfold rs in Hi; lia|unfold rs in Hj; lia|exact e'].
    - intros u Hu. rewrite I0 by (unfold left; lia). apply S4. exact Hu.
    - intros k Hk Hke. apply S5; [apply Hb; exact Hk|]. destruct Hke as [C|C].
      + rewrite I0 by (unfold left; lia). left. exact C.
      + right. destruct (Nat.lt_ge_cases k left) as [C'|C']; [unfold left in C'; lia|]. destruct (I2 k C' Hk) as [[P _] _]. exact P. }
  change (fun k => if k <? left then k else left + nth (k - left) fl 0) with idx in E.
  match type of E with context [restart_RR o LK t true changed ?a ?b ?c ?d ?e ?f ?g hperm None] =>
    destruct (restart_RR o LK t true changed a b c d e f g hperm None) as [[[H2 w] X2]|] eqn:Es; [|discriminate] end.
  cbn [bind] in E. injection E as <-.
  change (cols (cols X perm) idx) with (cols X (fun k => perm (idx k))) in Es.
  destruct (restart_common LK N A B nc t changed s X rs ip np ipB (fun k => perm (idx k)) hperm H2 w X2 HA HB HL Hg G1 G2 Sel2 Hp Ht Es)
    as (F1 & F2 & F3 & F4 & F5 & F6 & _).
  assert (Hg' := Hg). destruct Hg' as (HW & HBV & HV & HE & HO & HH & HX & HL').
  set (n := sn s) in *. set (m := nc + slk s) in *. set (V := sV s) in *.
  set (V1 := mul o n V (cols X perm)) in *.
  match goal with |- good _ _ _ _ _ (State _ _ _ _ _ _ _ _ ?e _ _) => set (E2 := e) end.
  assert (E2old : forall r j, j < m -> E2 r j = sE s r j).
  { intros r j Hj. unfold E2. replace (m <=? j) with false by (symmetry; apply Nat.leb_gt; exact Hj). reflexivity. }
  assert (E2new : forall r j, m <= j < m + length pl -> E2 r j = V1 r (left + nth (j - m) pl 0)).
  { intros r j Hj. unfold E2. replace ((m <=? j) && (j <? m + length pl)) with true
      by (symmetry; apply in_range; exact Hj).
    destruct (nth_passed ok numPacked (j - m)) as [P1 _]; [fold pl; lia|]. fold pl in P1.
    replace ((m <=? m + nth (j - m) pl 0) && (m + nth (j - m) pl 0 <? m + numPacked)) with true
      by (symmetry; apply in_range; lia).
    f_equal. lia. }
  (** the coefficients of what is locked *)
  set (new := fun i => left + nth (i - slk s) pl 0).
  assert (Nw : forall i, slk s <= i < slk s + length pl ->
            new i < left + numPacked /\ ip + np <= new i /\ ok (new i - left) = true).
  { intros i Hi. destruct (nth_passed ok numPacked (i - slk s)) as [P1 P2]; [fold pl; lia|]. fold pl in P1, P2.
    unfold new. replace (left + nth (i - slk s) pl 0 - left) with (nth (i - slk s) pl 0) by lia.
    split; [lia|]. split; [unfold left; lia|exact P2]. }
  assert (E2n : forall r i, slk s <= i < slk s + length pl -> E2 r (nc + i) = V1 r (new i)).
  { intros r i Hi. rewrite E2new by (unfold m; lia). unfold new. do 3 f_equal. unfold m. lia. }
  assert (Xcol : forall k r, k < left + numPacked -> ip + np <= k -> V1 r k = mul o n V (sX s) r (perm k) /\ perm k < n).
  { intros k r Hk Hk'. destruct Hsel as (S1 & S2 & S3 & S4 & S5). fold left in S5. assert (Hb := S5 k Hk (or_intror Hk')).
    split; [|lia]. unfold V1, mul, cols. apply sum_ext. intros l Hl. rewrite G2 by exact Hb. reflexivity. }
  assert (Pr : forall i, slk s <= i < slk s + length pl ->
    pair_right o N A B E2 (nc + i) (sth s (perm (new i)))
      (norm2 o N (resid o (mul o n (sW s) (cols X perm)) (mul o n (sBV s) (cols X perm)) (fun j => sth s (perm j)) (new i)))).
  { intros i Hi. destruct (Nw i Hi) as (N1 & N2 & _). destruct (Xcol (new i) 0 N1 N2) as [_ Hpn].
    destruct (good_candidate N A B nc s (perm (new i)) Hg Hpn) as (P & _ & _). fold n V in P.
    assert (Ec : forall M : mx, forall r, mul o n M (cols X perm) r (new i) = mul o n M (sX s) r (perm (new i))).
    { intros M r. unfold mul, cols. apply sum_ext. intros l Hl. rewrite G2; [reflexivity|].
      destruct Hsel as (S1 & S2 & S3 & S4 & S5). apply S5; [exact N1|right; exact N2]. }
    replace (norm2 o N (resid o (mul o n (sW s) (cols X perm)) (mul o n (sBV s) (cols X perm)) (fun j => sth s (perm j)) (new i)))
      with (norm2 o N (resid o (mul o n (sW s) (sX s)) (mul o n (sBV s) (sX s)) (sth s) (perm (new i)))).
    - apply (pair_right_ext N A B (mul o n V (sX s)) E2 (perm (new i))); [|exact P].
      intros r Hr. rewrite E2n by exact Hi. symmetry. apply Xcol; assumption.
    - unfold norm2. apply sum_ext. intros r Hr. unfold resid. rewrite !Ec. reflexivity. }
  assert (VE : forall i j, i < m -> left <= j < left + numPacked -> form o N (sE s) B V1 i j = k0 o).
  { intros i j Hi Hj. unfold V1. rewrite form_mul_r. unfold mul. apply sum_zero; [exact L|]. intros l Hl.
    rewrite (HO i l Hi Hl). ring. }
  assert (VV : forall i j, i < left + numPacked -> j < left + numPacked -> form o N V1 B V1 i j = one o i j).
  { intros i j Hi Hj. unfold V1. rewrite form_coef by exact HV.
    exact (selected_gram n (left + numPacked) ip np ipB perm X G1 Hsel i j Hi Hj). }
  assert (new_inj : forall i j, slk s <= i < slk s + length pl -> slk s <= j < slk s + length pl -> new i = new j -> i = j).
  { intros i j Hi Hj e. unfold new in e. assert (e' : nth (i - slk s) pl 0 = nth (j - slk s) pl 0) by lia.
    assert (i - slk s = j - slk s); [|lia].
    apply (Coq.Init.Logic.proj1 (NoDup_nth pl 0) (nodup_passed ok numPacked)); [lia|lia|exact e']. }
  unfold good. cbn [sn sV sW sBV sH sX sth slk sE sval sres].
  fold E2.
  split; [exact F1|]. split; [exact F2|]. split; [exact F3|].
  split; [|split; [|split; [exact F5|split; [exact F6|]]]].
  - (** the locked vectors are orthonormal *)
    rewrite Nat.add_assoc. fold m. intros i j Hi Hj.
    destruct (Nat.lt_ge_cases i m) as [Ci|Ci], (Nat.lt_ge_cases j m) as [Cj|Cj].
    + rewrite (form_ext N B E2 E2 (sE s) (sE s) i j i j) by (intros; apply E2old; assumption). apply HE; assumption.
    + assert (Hj' : slk s <= j - nc < slk s + length pl) by (unfold m in *; lia).
      rewrite (form_ext N B E2 E2 (sE s) V1 i j i (new (j - nc))).
      2: { intros; apply E2old; exact Ci. }
      2: { intros r _. rewrite <- E2n by exact Hj'. f_equal. unfold m in Cj. lia. }
      destruct (Nw _ Hj') as (N1 & N2 & _). rewrite VE by (fold left in N2; lia).
      unfold one. replace (i =? j) with false by (symmetry; apply Nat.eqb_neq; lia). reflexivity.
    + assert (Hi' : slk s <= i - nc < slk s + length pl) by (unfold m in *; lia).
      rewrite (form_ext N B E2 E2 V1 (sE s) i j (new (i - nc)) j).
      2: { intros r _. rewrite <- E2n by exact Hi'. f_equal. unfold m in Ci. lia. }
      2: { intros; apply E2old; exact Cj. }
      destruct (Nw _ Hi') as (N1 & N2 & _). rewrite form_sym by exact HB. rewrite VE by (fold left in N2; lia).
      unfold one. replace (i =? j) with false by (symmetry; apply Nat.eqb_neq; lia). apply (l_conj_0 o L).
    + assert (Hj' : slk s <= j - nc < slk s + length pl) by (unfold m in *; lia).
      assert (Hi' : slk s <= i - nc < slk s + length pl) by (unfold m in *; lia).
      rewrite (form_ext N B E2 E2 V1 V1 i j (new (i - nc)) (new (j - nc))).
      2: { intros r _. rewrite <- E2n by exact Hi'. f_equal. unfold m in Ci. lia. }
      2: { intros r _. rewrite <- E2n by exact Hj'. f_equal. unfold m in Cj. lia. }
      destruct (Nw _ Hi') as (N1 & N2 & _). destruct (Nw _ Hj') as (N3 & N4 & _).
      rewrite VV by assumption. unfold one.
      destruct (Nat.eqb_spec (new (i - nc)) (new (j - nc))) as [e|ne], (Nat.eqb_spec i j) as [e'|ne']; try reflexivity.
      * exfalso. apply new_inj in e; [|exact Hi'|exact Hj']. unfold m in *. lia.
      * subst. contradiction.
  - (** and orthogonal to the new basis *)
    rewrite Nat.add_assoc. fold m. intros i j Hi Hj.
    change (cols V1 idx) with (mul o n V (cols X (fun k => perm (idx k)))).
    destruct (Nat.lt_ge_cases i m) as [Ci|Ci].
    + rewrite (form_ext N B E2 (mul o n V (cols X (fun k => perm (idx k)))) (sE s) (mul o n V (cols X (fun k => perm (idx k)))) i j i j); auto.
    + assert (Hi' : slk s <= i - nc < slk s + length pl) by (unfold m in *; lia).
      destruct (Nw _ Hi') as (N1 & N2 & N3).
      assert (Hk : idx j < left + numPacked /\ idx j <> new (i - nc)).
      { destruct (Nat.lt_ge_cases j left) as [C|C].
        - rewrite I0 by exact C. fold left in N2. lia.
        - destruct (I2 j C Hj) as [P1 P2]. split; [lia|]. intros e. rewrite e in P2. congruence. }
      rewrite (form_ext N B E2 (mul o n V (cols X (fun k => perm (idx k)))) V1 V1 i j (new (i - nc)) (idx j)).
      2: { intros r _. rewrite <- E2n by exact Hi'. f_equal. unfold m in Ci. lia. }
      2: { intros r _. reflexivity. }
      destruct Hk as [Hk1 Hk2]. rewrite VV by assumption. unfold one.
      replace (new (i - nc) =? idx j) with false by (symmetry; apply Nat.eqb_neq; auto). reflexivity.
  - intros i Hi. destruct (Nat.lt_ge_cases i (slk s)) as [C|C].
    + replace ((slk s <=? i) && (i <? slk s + length pl)) with false by (symmetry; apply out_range; lia).
      apply (pair_right_ext N A B (sE s) E2 (nc + i)); [|exact (HL' i C)].
      intros r _. symmetry. apply E2old. unfold m. lia.
    + replace ((slk s <=? i) && (i <? slk s + length pl)) with true by (symmetry; apply in_range; lia).
      apply Pr. lia.
Qed.
End Props.
