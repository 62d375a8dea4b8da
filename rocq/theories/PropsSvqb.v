(** What the block orthonormalization computes (SvqbModel.v), for every history of
    Cholesky and eigenvalue factorizations in its loop. *)
From Coq Require Import List Arith Bool Lia Field Setoid Morphisms.
From Verif Require Import Base ProjModel SpecProj MatAlg SvqbModel SpecSvqb.
Import ListNotations.

Set Implicit Arguments.

Section S.
Context {K : Type} (o : scal K) (L : laws o) (la : lapack K) (LA : lapack_ok o la).
Context (rootN : K -> K) (rootD : nat -> K -> K) (big : K -> bool) (huge : K) (near1 : K -> bool).
Context (posd : K -> bool) (close : K -> K -> K -> bool).
Context (n : nat) (B : option (nat -> nat -> K)) (nl : nat) (locked : nat -> nat -> K) (b1 b2 : nat) (Hb : b1 < b2).
Local Notation m := (b2 - b1).
Local Notation p := (nl + b1).
Context (RO : roots_ok o m rootN rootD).
Local Notation mx := (nat -> nat -> K).
Local Notation "a + b" := (kadd o a b) : k_scope.
Local Notation "a * b" := (kmul o a b) : k_scope.
Local Notation "a - b" := (ksub o a b) : k_scope.
Delimit Scope k_scope with k.
Add Field Kf54 : (l_field o L).
Local Notation both := (both nl locked).
Local Notation block := (block b1).
Local Notation kup := (kernel_update o la n nl locked b1 b2).
Local Notation gup := (gram_update o n B nl locked b1 b2).
Local Notation fac := (factor o la rootN rootD big huge nl b1 b2).
Local Notation loop := (svqb_loop o la rootN rootD big huge near1 posd close n B nl locked b1 b2).
Local Notation bs := (@bst K).

(** ** Columns *)
Lemma block_set (V X : mx) i j : j < m -> block (setblock b1 b2 V X) i j = X i j.
Proof.
  intros Hj. unfold SvqbModel.block, setblock.
  destruct (b1 <=? b1 + j) eqn:E1; [|apply Nat.leb_gt in E1; lia].
  destruct (b1 + j <? b2) eqn:E2; [|apply Nat.ltb_ge in E2; lia].
  cbn. f_equal. lia.
Qed.
Lemma set_out (V X : mx) i j : j < b1 \/ b2 <= j -> setblock b1 b2 V X i j = V i j.
Proof.
  intros H. unfold setblock. destruct (b1 <=? j) eqn:E1, (j <? b2) eqn:E2; auto.
  apply Nat.leb_le in E1. apply Nat.ltb_lt in E2. lia.
Qed.
Lemma both_out (V V' : mx) i j : (forall l, l < b1 -> V i l = V' i l) -> j < p -> both V i j = both V' i j.
Proof.
  intros H Hj. unfold SvqbModel.both. destruct (j <? nl) eqn:E; auto. apply Nat.ltb_ge in E. apply H. lia.
Qed.

(** ** Triangular matrices *)
Lemma up_regular k F : nonzero_diagonal o k F -> regular o k (up o F).
Proof.
  intros H.
  pose proof (@ok_trsmN _ o la LA k k F (one o) H) as HN.
  pose proof (@ok_trsmC _ o la LA k k F (one o) H) as HC.
  set (W := trsmN la k k F (one o)) in *. set (Z := trsmC la k k F (one o)) in *.
  assert (HZ : meq k k (mul o k (adj o Z) (up o F)) (one o)).
  { rewrite <- (adjK o L k k (up o F)). rewrite <- (adjM o L). rewrite HC. apply (adj1 o L). }
  assert (E : meq k k (adj o Z) W).
  { rewrite <- (mul_1_r o L k k (adj o Z)). rewrite <- HN. rewrite (mulA o L). rewrite HZ. apply (mul_1_l o L). }
  exists W. split; [exact HN|]. rewrite <- E. exact HZ.
Qed.

(** ** The step: X = Vp S + X' T *)
Definition stepT (Y : mx) (N D : nat -> K) (Yo : bool) : mx :=
  fun i j => kmul o (D i) (kmul o (if Yo then kconj o (Y j i) else up o Y i j) (N j)).

Lemma factor_facts F (st st' : bs) : fac F st = Some st' -> exists Y N C1,
  (forall i, N i <> k0 o) /\ (forall i, kconj o (N i) = N i) /\
  (forall i, bD st' i <> k0 o) /\ (forall i, kconj o (bD st' i) = bD st' i) /\
  (forall i j, i <= j -> C1 i j = kdiv o (bC st' i j) (kmul o (N j) (N i))) /\
  (forall i j, i < m -> j < m -> br st' i j = mul o m (stepT Y N (bD st') (bYo st')) (br st) i j) /\
  (bYo st' = true -> (forall i j, bY st' i j = kdiv o (Y i j) (N i)) /\
     meq m m (mul o m (adj o Y) Y) (one o) /\ meq m m (mul o m Y (adj o Y)) (one o) /\
     meq m m (mul o m (mul o m Y (diag o (bE st'))) (adj o Y)) (herm o C1)) /\
  (bYo st' = false -> (forall i j, bY st' i j = kmul o (Y i j) (N j)) /\ (forall i, bD st' i = k1 o) /\
     nonzero_diagonal o m Y /\ meq m m (mul o m (adj o (up o Y)) (up o Y)) (herm o C1)).
Proof.
  intros Hf. unfold factor in Hf. cbv zeta in Hf.
  set (G := fix_overflow o big huge nl b1 (bG st) m) in *.
  set (S1 := trsmC la p m F (fun i j => G i (p + j)%nat)) in *.
  set (C := fun i j => ksub o (G (p + i)%nat (p + j)%nat) (mul o p (adj o S1) S1 i j)) in *.
  set (N := fun i => rootN (C i i)).
  match type of Hf with context[decomposition o la b1 b2 ?c] => set (C1 := c) in * end.
  assert (HC1 : forall i j, i <= j -> C1 i j = kdiv o (C i j) (kmul o (N j) (N i))).
  { intros i j Hij. unfold C1. destruct (i <=? j) eqn:E; auto. apply Nat.leb_gt in E; lia. }
  clearbody C1.
  destruct (decomposition o la b1 b2 C1) as [[[Y E] Yo]|] eqn:ED; [|discriminate].
  cbn [bind] in Hf. injection Hf as <-. exists Y, N, C1. cbn [bD bC br bYo bY bE].
  split; [intros i; apply (ok_N RO)|]. split; [intros i; apply (ok_Nr RO)|].
  split; [intros i; apply (ok_D RO)|]. split; [intros i; apply (ok_Dr RO)|].
  split; [exact HC1|].
  unfold decomposition in ED. destruct (potrf la m C1) as [Y0|] eqn:EP.
  - injection ED as <- <- <-.
    destruct (@ok_potrf _ _ _ LA _ _ _ EP) as [HY HC].
    split.
    { intros i j Hi Hj. unfold mul. rewrite <- (sum_mull o L). apply (sum_ext o). intros l Hl.
      unfold stepT, up, N, C, mul. destruct (i <=? l); ring. }
    split; [discriminate|]. intros _. split; [reflexivity|]. split; [intros i; apply (ok_D1 RO)|].
    split; assumption.
  - destruct (heev la m (fun i j => kopp o (C1 i j))) as [[Y0 e]|] eqn:EH; [|discriminate].
    cbn [bind fst snd] in ED.
    injection ED as <- <- <-.
    destruct (@ok_heev _ _ _ LA _ _ _ _ EH) as (H1 & H2 & H3).
    split.
    { intros i j Hi Hj. unfold mul. rewrite <- (sum_mull o L). apply (sum_ext o). intros l Hl.
      unfold stepT, N, C, mul, adj. cbv beta iota. ring. }
    split; [|discriminate]. intros _. split; [reflexivity|]. split; [exact H1|]. split; [exact H2|].
    assert (Hc : forall x, kconj o (kopp o x) = kopp o (kconj o x)).
    { intros x. replace (kopp o x) with (ksub o (k0 o) x) by ring. rewrite (conj_sub o L), (l_conj_0 o L). ring. }
    intros i j Hi Hj. specialize (H3 i j Hi Hj).
    transitivity (kopp o (mul o m (mul o m Y0 (diag o e)) (adj o Y0) i j)).
    + set (YE := mul o m Y0 (diag o e)). 
      transitivity (sum o m (fun l => kmul o (kopp o (k1 o)) (kmul o (YE i l) (adj o Y0 l j)))).
      * apply (sum_ext o). intros l Hl. unfold YE. rewrite !(mul_diag_r o L) by exact Hl. ring.
      * rewrite (sum_mull o L). unfold mul at 1. ring.
    + rewrite H3. unfold herm. destruct (i <=? j); [ring|]. rewrite Hc. ring.
Qed.

Lemma step_recovers F (st st' : bs) : fac F st = Some st' -> exists T,
  meq m m (br st') (mul o m T (br st)) /\
  meq n m (mul o m (block (kup st')) T)
          (msub o (block (bV st)) (mul o p (both (bV st)) (bS st'))) /\
  regular o m T /\
  (meq m m (herm o (bC st')) (bC st') ->
   (bYo st' = true -> forall i, i < m -> kmul o (bD st' i) (bD st' i) = bE st' i) ->
   meq m m (mul o m (adj o T) T) (bC st')).
Proof.
  intros Hf. destruct (factor_facts F st Hf) as (Y & N & C1 & H).
  destruct H as (HN & HNr & HD & HDr & HC1 & Hr & HT & HF).
  set (T := stepT Y N (bD st') (bYo st')) in *.
  exists T.
  assert (HV : bV st' = bV st).
  { revert Hf. unfold factor. cbv zeta. destruct (decomposition _ _ _ _ _) as [[[? ?] ?]|]; cbn [bind]; [|discriminate].
    intros E. injection E as <-. reflexivity. }
  split; [intros i j Hi Hj; apply Hr; assumption|].
  (* T^H T = N (..) N *)
  assert (HCN : forall i j, i < m -> j < m -> meq m m (herm o (bC st')) (bC st') ->
      kmul o (kmul o (N i) (herm o C1 i j)) (N j) = bC st' i j).
  { intros i j Hi Hj HH. unfold herm. destruct (i <=? j) eqn:E.
    - apply Nat.leb_le in E. rewrite HC1 by exact E. field. split; apply HN.
    - apply Nat.leb_gt in E. rewrite HC1 by lia. rewrite <- (HH i j Hi Hj). unfold herm.
      destruct (i <=? j) eqn:E'; [apply Nat.leb_le in E'; lia|].
      assert (Hdiv : kconj o (kdiv o (bC st' j i) (kmul o (N i) (N j))) = kdiv o (kconj o (bC st' j i)) (kmul o (N i) (N j))).
      { assert (Hm : kmul o (kconj o (kdiv o (bC st' j i) (kmul o (N i) (N j)))) (kmul o (N i) (N j)) = kconj o (bC st' j i)).
        { rewrite <- (HNr i), <- (HNr j) at 2. rewrite <- (l_conj_mul o L), <- (l_conj_mul o L). f_equal.
          field. split; apply HN. }
        rewrite <- Hm. field. split; apply HN. }
      rewrite Hdiv. field. split; apply HN. }
  destruct (bYo st') eqn:EY.
  - destruct (HT eq_refl) as (HY & U1 & U2 & U3). clear HT HF.
    set (Ti := fun i j => kmul o (bY st' i j) (kdiv o (k1 o) (bD st' j))).
    assert (HTi : meq m m (mul o m Ti T) (one o)).
    { intros i j Hi Hj. unfold mul.
      transitivity (kmul o (kmul o (kdiv o (k1 o) (N i)) (mul o m Y (adj o Y) i j)) (N j)).
      - unfold mul. rewrite <- (sum_mull o L), <- (sum_mulr o L). apply (sum_ext o). intros l Hl.
        unfold Ti, T, stepT, adj. rewrite HY. field. repeat split; first [apply HN|apply HD].
      - rewrite (U2 i j Hi Hj). unfold one. destruct (i =? j) eqn:E.
        + apply Nat.eqb_eq in E. subst. field. apply HN.
        + ring. }
    assert (HTi' : meq m m (mul o m T Ti) (one o)).
    { intros i j Hi Hj. unfold mul.
      transitivity (kmul o (kmul o (bD st' i) (mul o m (adj o Y) Y i j)) (kdiv o (k1 o) (bD st' j))).
      - unfold mul. rewrite <- (sum_mull o L), <- (sum_mulr o L). apply (sum_ext o). intros l Hl.
        unfold Ti, T, stepT, adj. rewrite HY. field. repeat split; first [apply HN|apply HD].
      - rewrite (U1 i j Hi Hj). unfold one. destruct (i =? j) eqn:E.
        + apply Nat.eqb_eq in E. subst. field. apply HD.
        + ring. }
    split.
    { assert (HX : meq n m (block (kup st'))
                (mul o m (msub o (block (bV st)) (mul o p (both (bV st)) (bS st'))) Ti)).
      { intros i j Hi Hj. unfold kernel_update. cbv zeta. rewrite EY, HV.
        rewrite block_set by exact Hj. reflexivity. }
      rewrite HX. rewrite <- (mulA o L). rewrite HTi. apply (mul_1_r o L). }
    split; [exists Ti; split; assumption|].
    intros HH HE. intros i j Hi Hj. rewrite <- (HCN i j Hi Hj HH). rewrite <- (U3 i j Hi Hj).
    unfold mul at 1. unfold mul at 1. rewrite <- (sum_mull o L), <- (sum_mulr o L). apply (sum_ext o). intros l Hl.
    rewrite (mul_diag_r o L) by exact Hl. rewrite <- (HE eq_refl l Hl).
    unfold T, stepT, adj. rewrite !(l_conj_mul o L), (l_conj_conj o L), HNr, HDr. ring.
  - destruct (HF eq_refl) as (HY & H1 & HnY & U3). clear HT HF.
    assert (HTu : meq m m T (up o (bY st'))).
    { intros i j Hi Hj. unfold T, stepT, up. rewrite H1, HY. destruct (i <=? j); ring. }
    assert (HnY' : nonzero_diagonal o m (bY st')).
    { intros i Hi E. rewrite HY in E. apply (HnY i Hi).
      transitivity (kdiv o (kmul o (Y i i) (N i)) (N i)); [field; apply HN|]. rewrite E. field. apply HN. }
    assert (HR : regular o m T).
    { destruct (up_regular HnY') as (W & W1 & W2). exists W. split; [rewrite HTu; exact W1|].
      rewrite HTu. exact W2. }
    split.
    { set (X1 := msub o (block (bV st)) (mul o p (both (bV st)) (bS st'))).
      destruct (m =? 1) eqn:E1.
      - apply Nat.eqb_eq in E1. intros i j Hi Hj.
        assert (Hj0 : j = 0) by lia. subst j.
        unfold mul at 1. rewrite E1. cbn [sum].
        unfold kernel_update. cbv zeta. rewrite EY, HV. 
        rewrite block_set by lia.
        replace (m =? 1) with true by (rewrite E1; reflexivity).
        fold X1. unfold mul at 1. rewrite E1. cbn [sum].
        rewrite (HTu 0 0) by lia. unfold up. cbn [Nat.leb]. rewrite H1.
        field. split; [|apply HnY'; lia].
        intros E. apply (HD 0). rewrite H1. exact E.
      - assert (HX : meq n m (block (kup st')) (trsmR la n m (bY st') X1)).
        { intros i j Hi Hj. unfold kernel_update. cbv zeta. rewrite EY, HV, E1.
          rewrite block_set by exact Hj. reflexivity. }
        rewrite HX, HTu. apply (ok_trsmR LA). exact HnY'. }
    split; [exact HR|].
    intros HH _. intros i j Hi Hj. rewrite <- (HCN i j Hi Hj HH). rewrite <- (U3 i j Hi Hj).
    unfold mul. rewrite <- (sum_mull o L), <- (sum_mulr o L). apply (sum_ext o). intros l Hl.
    unfold T, stepT, adj. rewrite !(l_conj_mul o L), HNr, H1, (conj_1 o L). ring.
Qed.

(** ** The loop: the input is recovered from the output *)
Definition stack (st : bs) : mx := fun i j => if i <? nl then bRL st i j else bRT st (i - nl) j.
Definition kept (V0 V : mx) : Prop := forall i j, j < b1 \/ b2 <= j -> V i j = V0 i j.
Definition recovers (V0 V : mx) (st : bs) : Prop := forall i j, i < n -> j < m ->
  V0 i (b1 + j) = kadd o (mul o p (both V0) (stack st) i j) (mul o m (block V) (br st) i j).

Lemma fac_V F (st st' : bs) : fac F st = Some st' -> bV st' = bV st.
Proof.
  unfold factor. cbv zeta. destruct (decomposition _ _ _ _ _) as [[[? ?] ?]|]; cbn [bind]; [|discriminate].
  intros E. injection E as <-. reflexivity.
Qed.
Lemma fac_G F (st st' : bs) : fac F st = Some st' -> bG st' = fix_overflow o big huge nl b1 (bG st) m.
Proof.
  unfold factor. cbv zeta. destruct (decomposition _ _ _ _ _) as [[[? ?] ?]|]; cbn [bind]; [|discriminate].
  intros E. injection E as <-. reflexivity.
Qed.
Lemma fac_stack F (st st' : bs) i j : fac F st = Some st' -> i < p ->
  stack st' i j = kadd o (stack st i j) (mul o m (bS st') (br st) i j).
Proof.
  unfold factor, stack. cbv zeta. destruct (decomposition _ _ _ _ _) as [[[? ?] ?]|]; cbn [bind]; [|discriminate].
  intros E0 Hi. injection E0 as <-.
  cbn [bRL bRT bS br].
  destruct (i <? nl) eqn:E; [reflexivity|]. apply Nat.ltb_ge in E.
  destruct (i - nl <? b1) eqn:E'; [|apply Nat.ltb_ge in E'; lia].
  f_equal. unfold mul. replace (nl + (i - nl))%nat with i by lia. reflexivity.
Qed.
Lemma kup_kept V0 (st : bs) : kept V0 (bV st) -> kept V0 (kup st).
Proof. intros H i j Hj. unfold kernel_update. cbv zeta. rewrite set_out by exact Hj. apply H. exact Hj. Qed.

Lemma fac_recovers F V0 (st st' : bs) : fac F st = Some st' -> kept V0 (bV st) -> recovers V0 (bV st) st ->
  kept V0 (kup st') /\ recovers V0 (kup st') st'.
Proof.
  intros Hf HK HR. split; [apply kup_kept; rewrite (fac_V _ _ Hf); exact HK|].
  destruct (step_recovers F st Hf) as (T & Hr & HX & _ & _).
  intros i j Hi Hj. rewrite (HR i j Hi Hj).
  assert (E1 : mul o p (both V0) (stack st') i j =
    kadd o (mul o p (both V0) (stack st) i j) (mul o p (both V0) (mul o m (bS st') (br st)) i j)).
  { unfold mul at 1 2 3. rewrite <- (sum_add o L). apply (sum_ext o). intros l Hl.
    rewrite (fac_stack F st j Hf Hl). ring. }
  assert (E2 : mul o m (block (kup st')) (br st') i j =
    ksub o (mul o m (block (bV st)) (br st) i j) (mul o p (both V0) (mul o m (bS st') (br st)) i j)).
  { assert (E : meq n m (mul o m (block (kup st')) (br st'))
                 (mul o m (msub o (block (bV st)) (mul o p (both (bV st)) (bS st'))) (br st))).
    { rewrite Hr. rewrite (mulA o L). rewrite HX. reflexivity. }
    rewrite (E i j Hi Hj). rewrite (mulBl o L n m) by assumption. unfold msub. f_equal.
    rewrite <- (mul_assoc o L). apply (sum_ext o). intros l Hl. f_equal. apply both_out; [|exact Hl].
    intros h Hh. apply HK. left; exact Hh. }
  rewrite E1, E2. ring.
Qed.

Definition current (its : nat) (st : bs) : mx := if its =? 0 then bV st else kup st.
Lemma loop_recovers F V0 : forall fuel its plus1 (st st' : bs) t,
  loop F fuel its plus1 st = Some (st', t) -> kept V0 (bV st) ->
  kept V0 (current its st) -> recovers V0 (current its st) st ->
  kept V0 (bV st') /\ (t = true -> recovers V0 (bV st') st').
Proof.
  induction fuel as [|f IH]; intros its plus1 st st' t E HK0 HK HR; cbn [svqb_loop] in E.
  { injection E as <- <-. split; [exact HK0|discriminate]. }
  fold (current its st) in E. cbv zeta in E.
  match type of E with (if ?c then Some (?s, _) else _) = _ => destruct c eqn:EC; set (st1 := s) in * end.
  - injection E as <- <-. split; [exact HK|]. intros _. exact HR.
  - destruct (fac F st1) as [st2|] eqn:E2; cbn [bind] in E; [|discriminate].
    destruct (@fac_recovers F V0 st1 st2 E2 HK HR) as [H1 H2].
    apply IH in E; [exact E| |exact H1|exact H2].
    rewrite (fac_V F st1 E2). exact HK.
Qed.

(** ** The loop: the inner products *)
Definition ip (P Q : mx) : mx := mul o n (adj o P) (Bmul o n B Q).
Definition no_overflow : Prop := forall x, big x = false.
Lemma fix_none G k : no_overflow -> fix_overflow o big huge nl b1 G k = G.
Proof. intros H. induction k as [|k IH]; cbn; auto. rewrite IH, H. reflexivity. Qed.

Lemma gup_new V G i j : i < nl + b2 -> j < m -> gup V G i (p + j) = ip (both V) (block V) i j.
Proof.
  intros Hi Hj. unfold gram_update. cbv zeta.
  destruct (i <? nl + b2) eqn:E1; [|apply Nat.ltb_ge in E1; lia].
  destruct (p <=? p + j) eqn:E2; [|apply Nat.leb_gt in E2; lia].
  destruct (p + j <? nl + b2) eqn:E3; [|apply Nat.ltb_ge in E3; lia].
  cbn [andb]. unfold ip. f_equal. lia.
Qed.
Lemma gup_old V G i j : j < p -> gup V G i j = G i j.
Proof.
  intros Hj. unfold gram_update. cbv zeta. destruct (p <=? j) eqn:E2; [apply Nat.leb_le in E2; lia|].
  rewrite andb_false_r. reflexivity.
Qed.

(** How the loop ends: after a kernel update with the last factorization, or with a
    factorization whose update is not made. *)
Definition ended (F V0 G0 : mx) (st' : bs) (t : bool) : Prop :=
  (forall i j, i < nl + b2 -> j < m -> bG st' i (p + j) = ip (both (bV st')) (block (bV st')) i j) /\
  (forall i j, j < p -> bG st' i j = G0 i j) /\
  (t = true -> rank_estimation posd close (bG st') (nl + b1) (nl + b2) = nl + b2 /\
     forall j, b1 <= j < b2 -> near1 (bG st' (nl + j) (nl + j)) = true) /\
  (t = true -> exists sp,
     kept V0 (bV sp) /\
     (forall i j, i < nl + b2 -> j < m -> bG sp i (p + j) = ip (both (bV sp)) (block (bV sp)) i j) /\
     exists sf, fac F sp = Some sf /\
     bV st' = kup sf /\ bYo st' = bYo sf /\ bD st' = bD sf /\ bE st' = bE sf).

Lemma near1_all G k : norms_near1 near1 nl b1 G k = true -> forall j, b1 <= j < b1 + k -> near1 (G (nl + j) (nl + j)) = true.
Proof.
  induction k as [|k IH]; intros H j Hj; [lia|]. cbn in H. apply andb_prop in H. destruct H as [H1 H2].
  destruct (Nat.eq_dec j (b1 + k)) as [->|]; [exact H2|apply IH; [exact H1|lia]].
Qed.
Lemma loop_ended F V0 G0 : no_overflow -> forall fuel its plus1 (st st' : bs) t,
  0 < fuel -> 0 < plus1 ->
  loop F fuel its plus1 st = Some (st', t) ->
  (forall i j, j < p -> bG st i j = G0 i j) ->
  (its <> 0 -> exists sp, fac F sp = Some st /\ kept V0 (bV sp) /\
     (forall i j, i < nl + b2 -> j < m -> bG sp i (p + j) = ip (both (bV sp)) (block (bV sp)) i j)) ->
  kept V0 (bV st) -> kept V0 (current its st) ->
  ended F V0 G0 st' t.
Proof.
  intros NO. induction fuel as [|f IH]; intros its plus1 st st' t Hf Hp E HG Hsp HK0 HK; [lia|].
  cbn [svqb_loop] in E. fold (current its st) in E. cbv zeta in E.
  set (V := current its st) in *.
  match type of E with (if ?c then Some (?s, _) else _) = _ => destruct c eqn:EC; set (st1 := s) in * end.
  - injection E as <- <-.
    apply andb_prop in EC. destruct EC as [EC EN]. apply andb_prop in EC. destruct EC as [E1 E2].
    apply Nat.eqb_eq in E1. apply Nat.leb_le in E2.
    split; [intros i j Hi Hj; apply gup_new; assumption|].
    split; [intros i j Hj; unfold st1; cbn [bG]; rewrite gup_old by exact Hj; apply HG; exact Hj|].
    split; [intros _; split; [exact E1|intros j Hj; apply (@near1_all _ m EN); lia]|].
    intros _. destruct Hsp as (sp & H0 & H1 & H2); [lia|]. exists sp.
    split; [exact H1|]. split; [exact H2|]. exists st. split; [exact H0|]. split.
    { unfold st1, V, current. cbn [bV]. destruct its; [lia|]. reflexivity. }
    repeat split.
  - assert (HG1 : forall i j, i < nl + b2 -> j < m -> bG st1 i (p + j) = ip (both (bV st1)) (block (bV st1)) i j).
    { intros i j Hi Hj. apply gup_new; assumption. }
    assert (HG2 : forall i j, j < p -> bG st1 i j = G0 i j).
    { intros i j Hj. unfold st1. cbn [bG]. rewrite gup_old by exact Hj. apply HG. exact Hj. }
    destruct (fac F st1) as [st2|] eqn:E2; cbn [bind] in E; [|discriminate].
    assert (HG3 : forall i j, j < p -> bG st2 i j = G0 i j).
    { intros i j Hj. rewrite (fac_G _ _ E2), fix_none by exact NO. apply HG2. exact Hj. }
    destruct f as [|f'].
    + cbn [svqb_loop] in E. injection E as <- <-. rewrite <- (fac_V F st1 E2) in HG1.
      unfold ended. rewrite (fac_G _ _ E2), fix_none by exact NO.
      split; [exact HG1|]. split; [exact HG2|]. split; discriminate.
    + eapply IH; [lia| |exact E|exact HG3| | |].
      * match goal with |- 0 < (if ?c then _ else _) => destruct c end; lia.
      * intros _. exists st1. split; [exact E2|]. split; [exact HK|exact HG1].
      * rewrite (fac_V _ _ E2). exact HK.
      * unfold current. cbn [Nat.eqb]. apply kup_kept. rewrite (fac_V _ _ E2). exact HK.
Qed.

(** ** Orthonormality of what the loop returns *)
Context (HB : match B with Some b => hermitian o n b | None => True end).
Lemma Bmul_mul a k X Z : meq n a (Bmul o n B (mul o k X Z)) (mul o k (Bmul o n B X) Z).
Proof. unfold Bmul. destruct B; [apply (mulA o L)|reflexivity]. Qed.
Lemma Bmul_sub a X Z : meq n a (Bmul o n B (msub o X Z)) (msub o (Bmul o n B X) (Bmul o n B Z)).
Proof. unfold Bmul. destruct B; [apply (mulBr o L)|reflexivity]. Qed.
Lemma Bmul_meq a X Z : meq n a X Z -> meq n a (Bmul o n B X) (Bmul o n B Z).
Proof. intros H. unfold Bmul. destruct B; [rewrite H; reflexivity|exact H]. Qed.
Lemma ip_meq a c P P' Q Q' : meq n a P P' -> meq n c Q Q' -> meq a c (ip P Q) (ip P' Q').
Proof. intros H1 H2. unfold ip. rewrite H1. rewrite (Bmul_meq H2). reflexivity. Qed.
Lemma ip_mul_r a c k P Q Z : meq a c (ip P (mul o k Q Z)) (mul o k (ip P Q) Z).
Proof. unfold ip. rewrite (Bmul_mul (a := c)). apply (mulA o L). Qed.
Lemma ip_sub_r a c P Q R : meq a c (ip P (msub o Q R)) (msub o (ip P Q) (ip P R)).
Proof. unfold ip. rewrite (Bmul_sub (a := c)). apply (mulBr o L). Qed.
Lemma ip_mul_l a c k P Q Z : meq a c (ip (mul o k P Z) Q) (mul o k (adj o Z) (ip P Q)).
Proof. unfold ip. rewrite (adjM o L). symmetry. apply (mulA o L). Qed.
Lemma ip_adj a c P Q : meq a c (adj o (ip P Q)) (ip Q P).
Proof.
  unfold ip. rewrite (adjM o L). unfold Bmul. destruct B as [b|].
  - rewrite (adjM o L). rewrite (adjK o L n c P). assert (Hh : meq n n (adj o b) b) by exact HB. rewrite Hh. symmetry. apply (mulA o L).
  - rewrite (adjK o L n c P). reflexivity.
Qed.
Lemma ip_sub_l a c P Q R : meq a c (ip (msub o P Q) R) (msub o (ip P R) (ip Q R)).
Proof.
  rewrite <- (ip_adj (a := a)). intros i j Hi Hj. unfold adj at 1. rewrite (@ip_sub_r (S j) (S i)) by lia.
  unfold msub. rewrite (conj_sub o L).
  pose proof (@ip_adj (S i) (S j) R P i j ltac:(lia) ltac:(lia)) as E1. unfold adj in E1. rewrite E1.
  pose proof (@ip_adj (S i) (S j) R Q i j ltac:(lia) ltac:(lia)) as E2. unfold adj in E2. rewrite E2. reflexivity.
Qed.

Lemma fac_S F (st st' : bs) : no_overflow -> fac F st = Some st' ->
  exists S1, let A := fun i j => bG st i (p + j)%nat in
  S1 = trsmC la p m F A /\ bS st' = trsmN la p m F S1 /\
  bC st' = fun i j => ksub o (A (p + i)%nat j) (mul o p (adj o S1) S1 i j).
Proof.
  intros NO E. unfold factor in E. cbv zeta in E. rewrite fix_none in E by exact NO.
  exists (trsmC la p m F (fun i j => bG st i (p + j)%nat)).
  destruct (decomposition _ _ _ _ _) as [[[? ?] ?]|]; cbn [bind] in E; [|discriminate].
  injection E as <-. repeat split.
Qed.

Lemma step_orthonormal F V0 (sp st' : bs) : no_overflow -> fac F sp = Some st' -> kept V0 (bV sp) ->
  (forall i j, i < nl + b2 -> j < m -> bG sp i (p + j) = ip (both (bV sp)) (block (bV sp)) i j) ->
  nonzero_diagonal o p F -> meq p p (mul o p (adj o (up o F)) (up o F)) (ip (both V0) (both V0)) ->
  (bYo st' = true -> forall i, i < m -> kmul o (bD st' i) (bD st' i) = bE st' i) ->
  meq p m (ip (both V0) (block (kup st'))) (fun _ _ => k0 o) /\
  meq m m (ip (block (kup st')) (block (kup st'))) (one o).
Proof.
  intros NO Hf HK HG HF HU HD.
  destruct (step_recovers F sp Hf) as (T & _ & HX & (W & W1 & W2) & HT).
  destruct (fac_S F sp NO Hf) as (S1 & ES1 & ES & EC). cbv zeta in *.
  set (S0 := bS st') in *. set (X := block (bV sp)) in *.
  set (Vp := both V0) in *.
  assert (HVp : meq n p (both (bV sp)) Vp).
  { intros i j Hi Hj. apply both_out; [|exact Hj]. intros l Hl. apply HK. left; exact Hl. }
  set (At := fun i j => bG sp i (p + j)%nat) in *.
  assert (HAt : meq p m At (ip Vp X)).
  { intros i j Hi Hj. unfold At. rewrite HG by lia. apply (ip_meq (a := p) (c := m) HVp (meq_refl n m X)); assumption. }
  assert (HAb : meq m m (fun i j => At (p + i)%nat j) (ip X X)).
  { intros i j Hi Hj. unfold At. rewrite HG by lia. unfold ip, mul. apply (sum_ext o). intros l Hl.
    f_equal. unfold adj. f_equal. unfold X, SvqbModel.both, SvqbModel.block.
    destruct (p + i <? nl) eqn:E; [apply Nat.ltb_lt in E; lia|]. f_equal. lia. }
  assert (H1 : meq p m (mul o p (adj o (up o F)) S1) At) by (rewrite ES1; apply (ok_trsmC LA); exact HF).
  assert (H2 : meq p m (mul o p (up o F) S0) S1) by (rewrite ES; apply (ok_trsmN LA); exact HF).
  set (X1 := msub o X (mul o p (both (bV sp)) S0)) in *.
  assert (HX1 : meq n m X1 (msub o X (mul o p Vp S0))) by (unfold X1; rewrite HVp; reflexivity).
  assert (O1 : meq p m (ip Vp X1) (fun _ _ => k0 o)).
  { rewrite (ip_meq (a := p) (c := m) (meq_refl n p Vp) HX1). rewrite ip_sub_r, ip_mul_r.
    rewrite <- HU. rewrite <- (mulA o L). rewrite H2, H1, HAt. intros i j _ _. unfold msub. ring. }
  assert (O2 : meq m m (ip X1 X1) (bC st')).
  { rewrite (ip_meq (a := m) (c := m) HX1 (meq_refl n m X1)). rewrite ip_sub_l, ip_mul_l. rewrite O1.
    rewrite (ip_meq (a := m) (c := m) (meq_refl n m X) HX1). rewrite ip_sub_r, ip_mul_r.
    rewrite <- (ip_adj (a := m) (c := p) Vp X). rewrite <- HAt. rewrite <- H1 at 1.
    rewrite (adjM o L). rewrite (adjK o L). rewrite <- (mulA o L). rewrite H2.
    rewrite <- HAb. rewrite EC. intros i j Hi Hj. unfold msub.
    assert (Z : mul o p (adj o S0) (fun _ _ => k0 o) i j = k0 o).
    { unfold mul. apply (sum_zero o L). intros; ring. }
    rewrite Z. cbv beta. unfold At. ring. }
  assert (HH : meq m m (herm o (bC st')) (bC st')).
  { intros i j Hi Hj. unfold herm. destruct (i <=? j); [reflexivity|].
    rewrite <- (O2 j i Hj Hi), <- (O2 i j Hi Hj). apply (@ip_adj m m X1 X1); assumption. }
  specialize (HT HH HD).
  assert (HX' : meq n m (block (kup st')) (mul o m X1 W)).
  { rewrite <- HX. rewrite <- (mulA o L). rewrite W1. symmetry. apply (mul_1_r o L). }
  split.
  - rewrite (ip_meq (a := p) (c := m) (meq_refl n p Vp) HX'). rewrite ip_mul_r. rewrite O1.
    intros i j _ _. unfold mul. apply (sum_zero o L). intros; ring.
  - rewrite (ip_meq (a := m) (c := m) HX' HX'). rewrite ip_mul_r, ip_mul_l. rewrite O2, <- HT.
    rewrite (mulA o L). rewrite <- (adjM o L). rewrite <- (mulA o L). rewrite W1.
    rewrite (mul_1_r o L). apply (adj1 o L).
Qed.

(** ** The factor of the inner products *)
Lemma cholesky_updated M VtV F F1 n0 n1 : n0 <= n1 ->
  (forall i j, i < n1 -> j < n1 -> kconj o (M i j) = M j i) ->
  (forall i j, i <= j -> j < n1 -> VtV i j = M i j) ->
  nonzero_diagonal o n0 F -> meq n0 n0 (mul o n0 (adj o (up o F)) (up o F)) M ->
  update_cholesky o la VtV F n0 n1 = Some F1 ->
  nonzero_diagonal o n1 F1 /\ meq n1 n1 (mul o n1 (adj o (up o F1)) (up o F1)) M /\
  (forall i j, j < n0 -> F1 i j = F i j).
Proof.
  intros Hn HM HV HF HU E. unfold update_cholesky in E.
  set (k := n1 - n0) in *.
  set (T := trsmC la n0 k F (fun i j => VtV i (n0 + j)%nat)) in *. cbv zeta in E.
  match type of E with bind (potrf la k ?a) _ = _ => set (A := a) in E; destruct (potrf la k A) as [P|] eqn:EP end;
    [|discriminate].
  cbn [bind] in E. injection E as <-.
  match goal with |- nonzero_diagonal o n1 ?f /\ _ => set (F1 := f) end.
  destruct (@ok_potrf _ _ _ LA _ _ _ EP) as [HP HPP].
  assert (HT : meq n0 k (mul o n0 (adj o (up o F)) T) (fun i j => VtV i (n0 + j)%nat)) by (apply (ok_trsmC LA); exact HF).
  assert (R1 : forall i j, j < n0 -> F1 i j = F i j).
  { intros i j Hj. unfold F1. destruct (n0 <=? j) eqn:Ej; [apply Nat.leb_le in Ej; lia|reflexivity]. }
  assert (R2 : forall i j, i < n0 -> j < k -> F1 i (n0 + j) = T i j).
  { intros i j Hi Hj. unfold F1. destruct (n0 <=? n0 + j) eqn:Ej; [|apply Nat.leb_gt in Ej; lia].
    destruct (n0 + j <? n1) eqn:Ej2; [|apply Nat.ltb_ge in Ej2; unfold k in Hj; lia].
    destruct (i <? n1) eqn:Ei; [|apply Nat.ltb_ge in Ei; lia].
    destruct (i <? n0) eqn:Ei2; [|apply Nat.ltb_ge in Ei2; lia]. cbn [andb]. f_equal. lia. }
  assert (R3 : forall i j, i < k -> j < k -> F1 (n0 + i) (n0 + j) = P i j).
  { intros i j Hi Hj. unfold F1. destruct (n0 <=? n0 + j) eqn:Ej; [|apply Nat.leb_gt in Ej; lia].
    destruct (n0 + j <? n1) eqn:Ej2; [|apply Nat.ltb_ge in Ej2; unfold k in Hj; lia].
    destruct (n0 + i <? n1) eqn:Ei; [|apply Nat.ltb_ge in Ei; unfold k in Hi; lia].
    destruct (n0 + i <? n0) eqn:Ei2; [apply Nat.ltb_lt in Ei2; lia|]. cbn [andb]. f_equal; lia. }
  assert (Ek : n1 = (n0 + k)%nat) by (unfold k; lia).
  assert (R4 : forall i, i < k -> kconj o (A i i) = A i i).
  { intros i Hi. unfold A. rewrite (conj_sub o L). rewrite (HV _ _ (le_n _)) by (unfold k in Hi; lia).
    rewrite HM by (unfold k in Hi; lia). f_equal.
    pose proof (adjM o L (S i) (S i) n0 (adj o T) T i i ltac:(lia) ltac:(lia)) as E1. unfold adj at 1 in E1. rewrite E1.
    apply (mul_meq o (S i) n0 (S i)); [reflexivity| |lia|lia]. apply (adjK o L). }
  split; [|split; [|exact R1]].
  - intros i Hi. destruct (Nat.lt_ge_cases i n0) as [Hl|Hl].
    + rewrite R1 by exact Hl. apply HF. exact Hl.
    + replace i with (n0 + (i - n0))%nat by lia. rewrite R3 by lia. apply HP. lia.
  - (* both halves of the sum *)
    assert (Hup : forall i j, i <= j -> j < n1 -> mul o n1 (adj o (up o F1)) (up o F1) i j = M i j).
    { intros i j Hij Hj. unfold mul. rewrite Ek at 1. rewrite (sum_split o L).
      destruct (Nat.lt_ge_cases j n0) as [Hl|Hl].
      - (* old *)
        rewrite (sum_zero o L k).
        + rewrite <- (HU i j) by lia. unfold mul.
          rewrite (sum_ext o n0 _ (fun l => kmul o (adj o (up o F) i l) (up o F l j))).
          * ring.
          * intros l Hll. unfold adj, up. rewrite !R1 by lia. reflexivity.
        + intros l Hll. unfold up at 2. destruct (n0 + l <=? j) eqn:El; [apply Nat.leb_le in El; lia|]. ring.
      - set (j' := j - n0). assert (Ej : j = (n0 + j')%nat) by (unfold j'; lia). assert (Hj' : j' < k) by lia.
        destruct (Nat.lt_ge_cases i n0) as [Hi|Hi].
        + (* top *)
          rewrite (sum_zero o L k).
          * rewrite <- (HV i j Hij Hj). rewrite Ej. rewrite <- (HT i j' Hi Hj'). unfold mul.
            rewrite (sum_ext o n0 _ (fun l => kmul o (adj o (up o F) i l) (T l j'))).
            -- ring.
            -- intros l Hll. unfold adj, up at 1 3. rewrite R1 by exact Hi. f_equal.
               unfold up. rewrite R2 by assumption. destruct (l <=? n0 + j') eqn:El; [reflexivity|apply Nat.leb_gt in El; lia].
          * intros l Hll. unfold adj, up at 1. destruct (n0 + l <=? i) eqn:El; [apply Nat.leb_le in El; lia|].
            rewrite (l_conj_0 o L). ring.
        + set (i' := i - n0). assert (Ei : i = (n0 + i')%nat) by (unfold i'; lia). assert (Hi' : i' < k) by lia.
          rewrite Ei, Ej.
          rewrite (sum_ext o n0 _ (fun l => kmul o (adj o T i' l) (T l j'))).
          2:{ intros l Hll. unfold adj, up. rewrite !R2 by assumption.
              destruct (l <=? n0 + i') eqn:El; [|apply Nat.leb_gt in El; lia].
              destruct (l <=? n0 + j') eqn:El'; [|apply Nat.leb_gt in El'; lia]. reflexivity. }
          rewrite (sum_ext o k _ (fun l => kmul o (adj o (up o P) i' l) (up o P l j'))).
          2:{ intros l Hll. unfold adj, up. rewrite !R3 by assumption.
              replace (n0 + l <=? n0 + i') with (l <=? i') by (destruct (l <=? i') eqn:X, (n0 + l <=? n0 + i') eqn:X'; auto;
                rewrite ?Nat.leb_le, ?Nat.leb_gt in *; lia).
              replace (n0 + l <=? n0 + j') with (l <=? j') by (destruct (l <=? j') eqn:X, (n0 + l <=? n0 + j') eqn:X'; auto;
                rewrite ?Nat.leb_le, ?Nat.leb_gt in *; lia).
              reflexivity. }
          pose proof (HPP i' j' Hi' Hj') as HQ. unfold mul at 1 in HQ. rewrite HQ.
          unfold herm. destruct (i' <=? j') eqn:El; [|apply Nat.leb_gt in El; lia].
          unfold A. rewrite HV by lia. unfold mul. ring. }
    intros i j Hi Hj. destruct (Nat.le_gt_cases i j) as [Hij|Hij]; [apply Hup; assumption|].
    rewrite <- (HM j i Hj Hi). rewrite <- (Hup j i) by lia.
    pose proof (adjM o L (S i) (S j) n1 (adj o (up o F1)) (up o F1) i j ltac:(lia) ltac:(lia)) as E1. unfold adj at 1 in E1.
    rewrite E1. apply (mul_meq o (S i) n1 (S j)); [reflexivity| |lia|lia]. symmetry. apply (adjK o L).
Qed.

End S.
