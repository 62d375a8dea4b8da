(** C27: orthogonalisation stops within its budget, whatever the arithmetic does.
    C34: in exact arithmetic it returns an orthonormal basis and the factors of the
    vectors it was given. *)
From Coq Require Import List Arith Lia Bool Ring_theory QArith Reals Lra FunctionalExtensionality.
From Verif Require Import Base OrthoModel SpecOrtho OrthoProofs OrthoProofs2 OrthoProofs3.
Import ListNotations.
Local Open Scope nat_scope.

(* ------------------------------------------------------------------ *)
(** ** C27 *)

(** For every arithmetic [sp], every stream of random vectors and every input:
    the routine returns; it reports a count between the start and the end of the
    range; it makes at most 33 passes per vector (77 for the local variant) and
    at most 10 replacements per vector; a smaller count means that all 10
    replacements of the next vector were tried; and only the columns of the
    range up to the first one that failed are written. *)
Theorem C27_bounded : forall sp hasprimme hasR hasRL rnd V b1 e locked iseed,
  b1 <= e -> e <= length V ->
  exists s, bortho_gen sp hasprimme hasR hasRL rnd V b1 e locked iseed = Some s /\
    b1 <= oout _ s <= e /\
    opass _ s <= (if hasprimme then 33 else 77) * (e - b1) /\
    iseed <= oseed _ s <= iseed + 10 * (e - b1) /\
    (oout _ s < e -> iseed + 10 <= oseed _ s) /\
    length (oV _ s) = length V /\
    (forall j, j < b1 \/ oout _ s < j \/ e <= j -> nth_error (oV _ s) j = nth_error V j).
Proof.
  intros sp hp hasR hasRL rnd V b1 e locked iseed Hb He. unfold bortho_gen.
  match goal with |- exists s, vecs _ _ _ _ _ _ _ _ _ ?x = _ /\ _ => set (s0 := x) end.
  destruct (vecs_done sp hp hasR hasRL rnd (e - b1) b1 b1 locked s0)
    as (s & H0 & H1 & H2 & H3 & H4 & H5 & H6 & H7).
  { lia. } { cbn [oV s0]. lia. } { cbn [oR s0]. rewrite repeat_length. lia. }
  { cbn [oRL s0]. rewrite repeat_length. lia. } { reflexivity. }
  exists s. split; [exact H0|]. split; [lia|].
  split.
  { cbn [opass s0] in H6. unfold maxNumOrthos, maxNumRandoms in H6. destruct hp; lia. }
  split; [cbn [oseed s0] in H5; unfold maxNumRandoms in H5; lia|].
  split; [cbn [oseed s0] in H7; unfold maxNumRandoms in H7; lia|].
  split; [exact H2|].
  intros j Hj. pose proof (fun e => vecs_frame _ _ _ _ _ _ _ _ _ _ _ j (Nat.le_refl b1) e H0) as F.
  rewrite (F eq_refl) by lia. reflexivity.
Qed.

(** The callers that return an error code return success exactly if every
    vector of the range was orthonormalised. *)
Theorem C27_code : forall sp hasprimme hasR hasRL rnd V b1 e locked iseed,
  b1 <= e -> e <= length V ->
  exists s, bortho_gen sp hasprimme hasR hasRL rnd V b1 e locked iseed = Some s /\
    (ortho_ok sp hasprimme hasR hasRL rnd V b1 e locked iseed = Some true <-> oout _ s = e) /\
    (ortho_ok sp hasprimme hasR hasRL rnd V b1 e locked iseed = Some false <-> oout _ s < e).
Proof.
  intros sp hp hasR hasRL rnd V b1 e locked iseed Hb He.
  destruct (C27_bounded sp hp hasR hasRL rnd V b1 e locked iseed Hb He) as (s & H0 & H1 & _).
  exists s. split; [exact H0|]. unfold ortho_ok. rewrite H0. cbn [bind].
  destruct (oout sp s =? e) eqn:Eq.
  - apply Nat.eqb_eq in Eq. split; split; intros; auto; try lia; discriminate.
  - apply Nat.eqb_neq in Eq. split; split; intros; auto; try lia; discriminate.
Qed.

(** The count the block variant reports: the first column of the range that
    fails its test, and no more than the range; whatever the tests are. *)
Theorem C27_rank : forall G (entry : nat -> nat -> G) bad big n0 n1,
  n0 <= n1 ->
  let passes i := bad (entry i i) = false /\
                  forall j, j < i -> big (entry j i) (entry i i) (entry j j) = false in
  let r := rank_estimation G entry bad big n0 n1 in
  n0 <= r <= n1 /\ (forall i, n0 <= i < r -> passes i) /\ (r < n1 -> ~ passes r).
Proof.
  intros G entry bad big n0 n1 Hn passes r.
  assert (SB : forall i k, some_big G entry big k i = false <->
            forall j, j < k -> big (entry j i) (entry i i) (entry j j) = false).
  { intros i. induction k as [|k IH]; cbn [some_big].
    - split; intros; auto; lia.
    - rewrite orb_false_iff, IH. split.
      + intros [H1 H2] j Hj. destruct (Nat.eq_dec j k) as [->|Hne]; auto. apply H1. lia.
      + intros H. split; [intros j Hj; apply H; lia|apply H; lia]. }
  assert (L : forall k i, let q := rank_scan G entry bad big k i in
     i <= q <= i + k /\ (forall p, i <= p < q -> passes p) /\ (q < i + k -> ~ passes q)).
  { induction k as [|k IH]; intros i; cbn [rank_scan]; cbv zeta.
    - repeat split; try lia.
    - destruct (bad (entry i i)) eqn:Eb.
      + repeat split; try lia. intros _ [H _]. congruence.
      + destruct (some_big G entry big i i) eqn:Es.
        * repeat split; try lia. intros _ [_ H]. apply SB in H. congruence.
        * destruct (IH (S i)) as (I1 & I2 & I3). split; [lia|]. split.
          -- intros p Hp. destruct (Nat.eq_dec p i) as [->|Hne].
             ++ split; [auto|]. apply SB. exact Es.
             ++ apply I2. lia.
          -- intros Hq. apply I3. lia. }
  destruct (L (n1 - n0) n0) as (L1 & L2 & L3). fold (rank_estimation G entry bad big n0 n1) in *.
  fold r in L1, L2, L3. clearbody r.
  split; [lia|]. split; [exact L2|]. intros Hr. apply L3. lia.
Qed.

(* ------------------------------------------------------------------ *)
(** ** C34 *)

(** Exact arithmetic, orthonormal locked vectors and orthonormal V[0..b1-1]:
    the locked vectors and the vectors reported are orthonormal, in the inner
    product the caller gave. *)
Theorem C34_orthonormal : forall sp, exact sp ->
  forall hasprimme hasR hasRL rnd V b1 e locked iseed s,
  orthonormal sp (locked ++ firstn b1 V) ->
  bortho_gen sp hasprimme hasR hasRL rnd V b1 e locked iseed = Some s ->
  orthonormal sp (locked ++ firstn (oout _ s) (oV _ s)).
Proof.
  intros sp E hp hasR hasRL rnd V b1 e locked iseed s Ho H.
  eapply (vecs_orth sp E); [| |exact H]; [reflexivity|exact Ho].
Qed.

Lemma C34_start : forall sp V b1 e locked iseed,
  b1 <= e -> e <= length V -> orthonormal sp (locked ++ firstn b1 V) ->
  binv sp locked V b1 e b1
    (Ost sp V (repeat (repeat (k0 sp) e) (e - b1))
              (repeat (repeat (k0 sp) (length locked)) (e - b1)) iseed 0 b1).
Proof.
  intros sp V b1 e locked iseed Hb He Ho. unfold binv. cbn [oout oV oR oRL].
  rewrite !repeat_length.
  assert (HR : forall m p j r, nth_error (repeat (repeat (k0 sp) m) p) j = Some r ->
            r = repeat (k0 sp) m).
  { intros m p j r Hr. apply nth_error_In, repeat_spec in Hr. exact Hr. }
  split; [reflexivity|]. split; [exact Ho|]. split; [reflexivity|]. split; [reflexivity|].
  split; [reflexivity|]. split; [reflexivity|].
  split; [intros j r Hr; apply HR in Hr; subst r; apply repeat_length|].
  split; [intros j r Hr; apply HR in Hr; subst r; apply repeat_length|].
  split; [intros j r _ Hr; eapply HR; eauto|].
  split; [intros j r _ Hr; eapply HR; eauto|].
  intros j r rl Hj. lia.
Qed.

(** The factors returned: R is upper triangular, and every input vector whose
    diagonal entry is not zero is the combination of the output vectors and the
    locked vectors that its columns of R and RLocked say. *)
Theorem C34_factors : forall sp, exact sp ->
  forall hasprimme rnd V b1 e locked iseed s,
  b1 <= e -> e <= length V -> orthonormal sp (locked ++ firstn b1 V) ->
  bortho_gen sp hasprimme true true rnd V b1 e locked iseed = Some s ->
  forall j x r rl, b1 <= j < e ->
    nth_error V j = Some x -> nth_error (oR _ s) (j - b1) = Some r ->
    nth_error (oRL _ s) (j - b1) = Some rl ->
    (forall k d, j < k -> nth_error r k = Some d -> d = k0 sp) /\
    (oout _ s <= j -> nth_error r j = Some (k0 sp)) /\
    (nth_error r j <> Some (k0 sp) ->
     x = xadd sp (lincomb sp (oV _ s) r) (lincomb sp locked rl)).
Proof.
  intros sp E hp rnd V b1 e locked iseed s Hb He Ho H j x r rl Hj Hx Hr Hrl.
  pose proof (vecs_facts sp E hp rnd locked V b1 e (e - b1) b1 _ s (Nat.le_refl b1)
     ltac:(lia) He (C34_start sp V b1 e locked iseed Hb He Ho) H j r rl Hj Hr Hrl)
    as (F1 & F2 & F3 & F4 & F5).
  split; [exact F3|]. split; [exact F4|]. intros Hne.
  destruct (Nat.lt_ge_cases j (oout _ s)) as [Hlt|Hge]; [|exfalso; auto].
  destruct (F5 Hlt) as (_ & F6).
  destruct (nth_error r j) as [d|] eqn:Ed.
  - apply (F6 d eq_refl); auto. congruence.
  - apply nth_error_None in Ed. lia.
Qed.

(** A diagonal entry of R is zero only if the input vector is dependent on the
    vectors before it: what is left of it outside their span is at most eps times
    its norm.  (In particular independent vectors are never replaced and the count
    falls short only at a dependent vector.) *)
Theorem C34_replaced : forall sp, exact sp -> ordered sp ->
  forall hasprimme hasRL rnd V b1 e locked iseed s,
  b1 <= e -> e <= length V -> orthonormal sp (locked ++ firstn b1 V) ->
  bortho_gen sp hasprimme true hasRL rnd V b1 e locked iseed = Some s ->
  forall j x r, b1 <= j <= oout _ s -> j < e ->
    nth_error V j = Some x -> nth_error (oR _ s) (j - b1) = Some r ->
    nth_error r j = Some (k0 sp) ->
    dependent sp (locked ++ firstn j (oV _ s)) x.
Proof.
  intros sp E O hp hasRL rnd V b1 e locked iseed s Hb He Ho H j x r Hj Hje Hx Hr Hz.
  eapply (vecs_dep sp E O hp hasRL rnd locked b1 e (e - b1) b1);
    [lia|lia| | | |exact H|exact Hj|exact Hje|exact Hx|exact Hr|exact Hz].
  - reflexivity.
  - exact Ho.
  - cbn [oR]. intros q r' Hq. apply nth_error_In, repeat_spec in Hq. subst r'. apply repeat_length.
Qed.

(** ** C35 *)

(** The block variant multiplies into R one transformation more than it applies
    to the vectors whenever its loop ends by the limit of five iterations and not
    by its test: the two agree exactly if the test ended it. *)
Theorem C35_block_partial : forall full unit_diag,
  let s := svqb_run full unit_diag in
  1 <= b_its s <= 5 /\ inV s = seq 0 (b_its s - 1) /\
  (inR s = inV s \/ (b_its s = 5 /\ inR s = seq 0 5)).
Proof.
  intros full unit_diag s.
  assert (L : forall fuel its plus1 z, 0 < fuel ->
    inV z = seq 0 (its - 1) -> inR z = seq 0 its ->
    let q := svqb full unit_diag fuel its plus1 z in
    its + 1 <= b_its q <= its + fuel /\ inV q = seq 0 (b_its q - 1) /\
    (inR q = inV q \/ (b_its q = its + fuel /\ inR q = seq 0 (its + fuel)))).
  { induction fuel as [|f IH]; intros its plus1 z Hf HV HR; [lia|].
    cbn [svqb]. cbv zeta.
    assert (HV' : match its with 0 => inV z | S p => inV z ++ [p] end = seq 0 its).
    { destruct its as [|p]; [exact HV|]. rewrite HV, seq_S. cbn [Nat.sub plus].
      rewrite Nat.sub_0_r. reflexivity. }
    destruct (full its && (plus1 <=? its) && unit_diag its).
    - cbn [b_its inV inR]. split; [lia|]. replace (S its - 1) with its by lia.
      split; [exact HV'|]. left. congruence.
    - destruct f as [|f'].
      + cbn [svqb b_its inV inR]. split; [lia|]. replace (S its - 1) with its by lia.
        split; [exact HV'|]. right. split; [lia|]. rewrite HR, <- seq_S. f_equal. lia.
      + specialize (IH (S its) (if full its && (its <? plus1) then Nat.min (S its) plus1 else plus1)
          (Bst (match its with 0 => inV z | S p => inV z ++ [p] end) (inR z ++ [its]) (S its))).
        destruct IH as (I1 & I2 & I3).
        * lia.
        * cbn [inV]. rewrite HV'. f_equal. lia.
        * cbn [inR]. rewrite HR, <- seq_S. reflexivity.
        * split; [lia|]. split; [exact I2|]. destruct I3 as [I3|[I3 I4]]; [left; auto|].
          right. split; [lia|]. rewrite I4. f_equal. lia. }
  exact (L 5 0 5 (Bst [] [] 0) ltac:(lia) eq_refl eq_refl).
Qed.

Theorem C35_block_refuted : exists full unit_diag,
  inR (svqb_run full unit_diag) <> inV (svqb_run full unit_diag).
Proof. exists (fun _ => false), (fun _ => false). vm_compute. discriminate. Qed.

(* ------------------------------------------------------------------ *)
(** The hypotheses are met: real vectors of any length n with any diagonal B of
    nonnegative entries.  (The reciprocal of zero is represented by -1 and "finite"
    by "not negative"; the code only asks it of norms and their reciprocals.) *)
Section Reals.
Local Open Scope R_scope.
Variable n : nat.
Variable d : option (nat -> R).
Hypothesis d_pos : forall f, d = Some f -> forall k, 0 <= f k.

Fixpoint rdot (m : nat) (x y : nat -> R) : R :=
  match m with O => 0 | S k => rdot k x y + x k * y k end.

Definition reals : space :=
  Space (nat -> R) R 0 1 Rplus Rmult Rminus Ropp
    (fun a => if Req_EM_T a 0 then -1 else / a) (fun a => a) (fun a => a) sqrt
    (fun a => if Rle_dec 0 a then true else false)
    (fun a b => if Rle_dec a b then true else false)
    (/ 1000) (sqrt 2 / 2)
    (fun _ => 0) (fun x y k => x k + y k) (fun c x k => c * x k)
    (rdot n) (match d with Some f => Some (fun x k => f k * x k) | None => None end).

Lemma rbip : forall u w, bip reals u w =
  rdot n u (fun k => (match d with Some f => f k | None => 1 end) * w k).
Proof.
  intros u w. unfold bip. cbn. destruct d as [f|]; [reflexivity|].
  f_equal. extensionality k. ring.
Qed.

Lemma rbip_pos : forall u, 0 <= bip reals u u.
Proof.
  intros u. rewrite rbip. induction n as [|m IH]; cbn; [lra|].
  assert (0 <= match d with Some f => f m | None => 1 end).
  { destruct d as [f|]; [eapply d_pos; eauto|lra]. }
  pose proof (Rle_0_sqr (u m)) as Hs. unfold Rsqr in Hs.
  replace (u m * (match d with Some f => f m | None => 1 end * u m))
    with (match d with Some f => f m | None => 1 end * (u m * u m)) by ring.
  pose proof (Rmult_le_pos _ _ H Hs). lra.
Qed.

Lemma rnorm_pos : forall u, 0 <= norm reals u.
Proof. intros u. apply sqrt_pos. Qed.

Lemma reals_exact : exact reals.
Proof.
  constructor; cbn [X K k0 k1 kadd kmul ksub kopp kinv kconj x0 xadd xscal kfin]; auto.
  - constructor; intros; cbn; ring.
  - intros a Ha. cbn in *. destruct (Req_EM_T a 0); [contradiction|]. apply Rinv_r. auto.
  - intros x y. cbn. extensionality k. ring.
  - intros x y z. cbn. extensionality k. ring.
  - intros x. cbn. extensionality k. ring.
  - intros x. cbn. extensionality k. ring.
  - intros x. cbn. extensionality k. ring.
  - intros a b x. cbn. extensionality k. ring.
  - intros a b x. cbn. extensionality k. ring.
  - intros u x y. rewrite !rbip. cbn.
    induction n as [|m IH]; cbn; [ring|]. rewrite IH. ring.
  - intros u c x. rewrite !rbip. cbn.
    induction n as [|m IH]; cbn; [ring|]. rewrite IH. ring.
  - intros u w. rewrite !rbip. cbn.
    induction n as [|m IH]; cbn; [ring|]. rewrite IH. ring.
  - intros u. unfold norm. cbn. apply sqrt_sqrt. apply rbip_pos.
  - intros u H. cbn in H |- *. intros H0. rewrite H0 in H.
    destruct (Req_EM_T 0 0); [|lra]. destruct (Rle_dec 0 (-1)); [lra|discriminate].
Qed.

Lemma reals_ordered : ordered reals.
Proof.
  assert (S2 : sqrt 2 < 2).
  { apply Rsqr_incrst_0; [|apply sqrt_pos|lra]. rewrite Rsqr_sqrt by lra. unfold Rsqr. lra. }
  constructor; cbn [K k0 kmul kfin kle kinv keps ktol].
  - intros u. pose proof (rnorm_pos u) as Hp. revert Hp. generalize (norm reals u).
    cbn. intros t Hp. destruct (Rle_dec 0 t); auto; lra.
  - intros u. pose proof (rnorm_pos u) as Hp. revert Hp. generalize (norm reals u).
    cbn. intros t Hp Ht. destruct (Req_EM_T t 0); [contradiction|].
    destruct (Rle_dec 0 (/ t)) as [|Hn]; auto. exfalso. apply Hn.
    left. apply Rinv_0_lt_compat. lra.
  - intros u. pose proof (rnorm_pos u) as Hp. revert Hp. generalize (norm reals u).
    cbn. intros t Hp Ht. destruct (Rle_dec t (/ 1000 * t)); auto. lra.
  - intros u. pose proof (rnorm_pos u) as Hp. revert Hp. generalize (norm reals u).
    cbn. intros t Hp Ht. destruct (Rle_dec t (sqrt 2 / 2 * t)) as [Hle|]; auto.
    exfalso. assert (sqrt 2 / 2 * t < 1 * t) by (apply Rmult_lt_compat_r; lra). lra.
  - intros u. pose proof (rnorm_pos u) as Hp. revert Hp. generalize (norm reals u).
    cbn. intros t Hp. destruct (Rle_dec 0 (/ 1000 * t)) as [|Hn]; auto. exfalso. apply Hn. lra.
Qed.
End Reals.

(** So for real vectors, with nothing assumed but the input: *)
Theorem C34_real : forall n hasprimme rnd (V : list (nat -> R)) e iseed,
  e <= length V ->
  exists s, bortho_gen (reals n None) hasprimme true true rnd V 0 e [] iseed = Some s /\
    orthonormal (reals n None) (firstn (oout _ s) (oV _ s)) /\
    (oout _ s < e -> exists x, nth_error V (oout _ s) = Some x /\
       dependent (reals n None) (firstn (oout _ s) (oV _ s)) x).
Proof.
  intros n hp rnd V e iseed He.
  assert (Hd : forall f, @None (nat -> R) = Some f -> forall k, (0 <= f k)%R) by discriminate.
  assert (Ho : orthonormal (reals n None) ([] ++ firstn 0 V)).
  { intros i j x y Hi. destruct i; discriminate. }
  destruct (C27_bounded (reals n None) hp true true rnd V 0 e [] iseed (Nat.le_0_l e) He)
    as (s & H0 & H1 & _).
  exists s. split; [exact H0|]. split.
  - apply (C34_orthonormal _ (reals_exact n None Hd) hp true true rnd V 0 e [] iseed s Ho H0).
  - intros Hlt.
    destruct (nth_error V (oout _ s)) as [x|] eqn:Ex.
    2:{ apply nth_error_None in Ex. cbn in Ex. lia. }
    exists x. split; [reflexivity|].
    destruct (vecs_done (reals n None) hp true true rnd (e - 0) 0 0 []
      (Ost (reals n None) V (repeat (repeat (k0 (reals n None)) e) (e - 0))
         (repeat (repeat (k0 (reals n None)) 0) (e - 0)) iseed 0 0))
      as (s' & G0 & G1 & G2 & G3 & G4 & _).
    { lia. } { rewrite Nat.sub_0_r. exact He. }
    { cbn [oR]. rewrite repeat_length. lia. }
    { cbn [oRL]. rewrite repeat_length. lia. } { reflexivity. }
    assert (Hs : Some s' = Some s) by (rewrite <- G0; exact H0).
    inversion Hs; subst s'. cbn [oR oRL] in G3, G4. rewrite repeat_length in G3, G4.
    destruct (nth_error (oR _ s) (oout _ s - 0)) as [r|] eqn:Er.
    2:{ apply nth_error_None in Er. lia. }
    destruct (nth_error (oRL _ s) (oout _ s - 0)) as [rl|] eqn:Erl.
    2:{ apply nth_error_None in Erl. lia. }
    destruct (C34_factors _ (reals_exact n None Hd) hp rnd V 0 e [] iseed s (Nat.le_0_l e) He Ho H0
       (oout _ s) x r rl) as (_ & F & _); auto; try lia.
    apply (C34_replaced _ (reals_exact n None Hd) (reals_ordered n None) hp true rnd V 0 e []
       iseed s (Nat.le_0_l e) He Ho H0 (oout _ s) x r); auto; lia.
Qed.

(** A run that can be computed: rational vectors whose norms are squares. *)
Section Run.
Local Open Scope Q_scope.
Definition qsqrt (q : Q) : Q :=
  let r := Qred q in (Z.sqrt (Qnum r) # Pos.sqrt (Qden r)).
Definition rats : space :=
  Space (Q * Q) Q 0 1 (fun a b => Qred (a + b)) (fun a b => Qred (a * b))
    (fun a b => Qred (a - b)) Qopp (fun a => if Qeq_bool a 0 then -1 else Qred (/ a))
    (fun a => a) (fun a => a) qsqrt (Qle_bool 0) Qle_bool (1 # 1000) (7071 # 10000)
    (0, 0) (fun x y => (Qred (fst x + fst y), Qred (snd x + snd y)))
    (fun c x => (Qred (c * fst x), Qred (c * snd x)))
    (fun x y => Qred (fst x * fst y + snd x * snd y)) None.

(** (3,4), (0,5) and a dependent third vector; all random vectors are (3,4). *)
Example C34_run :
  match bortho_gen rats true true true (fun _ => (3, 4)) [(3, 4); (0, 5); (1, 1)] 0 3 [] 7 with
  | Some s => firstn 2 (oV _ s) = [(3 # 5, 4 # 5); (-4 # 5, 3 # 5)] /\
              oR _ s = [[5; 0; 0]; [4; 3; 0]; [7 # 5; -1 # 5; 0]] /\ oout _ s = 2%nat
  | None => False
  end.
Proof. vm_compute. repeat split. Qed.
End Run.

Example C27_rank_example :
  rank_estimation nat (fun j i => if j =? i then i + 1 else if (j =? 1) && (i =? 3) then 9 else 0)
    (fun g => g =? 0) (fun a b c => b * c <? a) 1 5 = 3.
Proof. reflexivity. Qed.

Example C35_block_stops : exists full unit_diag,
  b_its (svqb_run full unit_diag) = 3 /\ inR (svqb_run full unit_diag) = [0; 1] /\
  inV (svqb_run full unit_diag) = [0; 1].
Proof. exists (fun k => 1 <=? k), (fun _ => true). repeat split. Qed.

Print Assumptions C27_bounded.
Print Assumptions C27_code.
Print Assumptions C27_rank.
Print Assumptions C34_orthonormal.
Print Assumptions C34_factors.
Print Assumptions C34_replaced.
Print Assumptions C35_block_partial.
Print Assumptions C35_block_refuted.
Print Assumptions C34_real.
