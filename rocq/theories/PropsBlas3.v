(** C55: two users of the operations on blocks over all processes, the exceptions
    and cases. *)
From Coq Require Import List Arith Bool Lia Field Setoid ZArith QArith Qcanon.
From Verif Require Import Base ProjModel SpecProj MatAlg BlasModel SpecBlas PropsBlas PropsBlas2 PropsProj PropsQmr4.
Import ListNotations.
Local Open Scope nat_scope.

Section Users.
Context {K : Type} (o : scal K) (L : laws o).
Variable cplx : bool. Variable bmax pbs : nat. Variable kcode : K.
Hypothesis Hb : 2 <= bmax.
Hypothesis Hp : 1 <= pbs.
Hypothesis Hreal : real_build o cplx.
Variable same : bool. Variable up down : K -> K. Variable junk : nat -> K.
Hypothesis Hconv : conversions same up down.
Add Field Kf : (l_field o L).
Notation "a +k b" := (kadd o a b) (at level 50, left associativity).
Notation "a *k b" := (kmul o a b) (at level 40, left associativity).
Notation "a -k b" := (ksub o a b) (at level 50, left associativity).

Lemma gather_ok (P : nat -> (nat -> K) -> Prop) n (f : nat -> res) :
  (forall p, p < n -> exists c, f p = Done c /\ P p c) ->
  exists g, gather junk n f = Some g /\ forall p, p < n -> P p (g p).
Proof.
  induction n as [|n IH]; intros H; cbn [gather].
  - exists (fun _ => junk). split; [reflexivity|]. lia.
  - destruct IH as (g & -> & Hg); [intros; apply H; lia|]. destruct (H n ltac:(lia)) as (c & -> & Hc).
    eexists. split; [reflexivity|]. intros p Hp'. cbn beta. destruct (p =? n) eqn:E.
    + apply Nat.eqb_eq in E. subst p. exact Hc.
    + apply Nat.eqb_neq in E. apply Hg. lia.
Qed.

(** The projector of the inner solver, v - Qhat (M^-1) Q'v, on any number of
    processes, each with at least one row. *)
Theorem C55_projector : forall np nl Q ldQ Qhat ldQhat msolve numCols v ldv blockSize ovl,
  numCols < bmax -> blockSize < bmax ->
  (forall p, p < np -> 1 <= nl p < bmax /\ nl p <= ldQ p <= bmax /\ nl p <= ldQhat p <= bmax /\ nl p <= ldv p <= bmax) ->
  (cplx = true -> blockSize = 1 -> forall p, p < np -> nl p <> 1) ->
  (forall s s', (forall i j, i < numCols -> j < blockSize -> s (j * numCols + i) = s' (j * numCols + i)) ->
     forall i j, i < numCols -> j < blockSize -> msolve s (j * numCols + i) = msolve s' (j * numCols + i)) ->
  exists v', skew_projector o cplx bmax pbs kcode same up down junk np nl Q ldQ Qhat ldQhat msolve numCols
               v ldv blockSize ovl = Some v' /\
    forall s, (forall i j, i < numCols -> j < blockSize -> s (j * numCols + i) =
                 inner_products o np nl (fun p => converted up (stored (Q p) (ldQ p)))
                   (fun p => converted up (stored (v p) (ldv p))) i j) ->
    forall p, p < np ->
      updated o (nl p) blockSize up down (kopp o (k1 o))
        (mul o numCols (converted up (stored (Qhat p) (ldQhat p))) (stored (msolve s) numCols))
        (k1 o) (v p) (ldv p) (v' p).
Proof.
  intros np nl Q ldQ Qhat ldQhat msolve numCols v ldv blockSize ovl Hc Hbs Hd Hx Hms. unfold skew_projector.
  destruct ((numCols =? 0) || (blockSize =? 0)) eqn:E0.
  { exists v. split; [reflexivity|]. intros s _ p Hp'. apply (updated_none o L bmax Hb same up down Hconv); auto.
    intros i j Hi Hj. apply orb_true_iff in E0. rewrite !Nat.eqb_eq in E0.
    destruct E0 as [->| ->]; [|lia]. unfold mul. cbn. ring. }
  apply orb_false_iff in E0. rewrite !Nat.eqb_neq in E0.
  destruct (gather_ok (fun p c => updated o numCols blockSize same_as same_as (k1 o)
      (mul o (nl p) (adj o (converted up (stored (Q p) (ldQ p)))) (converted up (stored (v p) (ldv p))))
      (k0 o) (ovl p) numCols c) np
      (fun p => gemm_ddh o cplx bmax pbs kcode same up junk trC trN numCols blockSize (nl p) (k1 o) (Q p) (ldQ p)
                  (v p) (ldv p) (k0 o) (ovl p) numCols)) as (bufs & -> & Hbufs).
  { intros p Hp'. destruct (Hd p Hp') as (H1 & H2 & H3 & H4).
    apply (C55_gemm_ddh o L cplx bmax pbs kcode Hb Hreal same up down junk Hconv); cbn [isN]; auto; try lia. }
  set (S := msolve (global_sum o np bufs)).
  destruct (gather_ok (fun p c => updated o (nl p) blockSize up down (kopp o (k1 o))
        (mul o numCols (converted up (stored (Qhat p) (ldQhat p))) (stored S numCols))
        (k1 o) (v p) (ldv p) c) np
      (fun p => gemm_dhd o cplx bmax kcode same up down junk trN trN (nl p) blockSize numCols (kopp o (k1 o)) (Qhat p)
                  (ldQhat p) S numCols (k1 o) (v p) (ldv p))) as (v' & -> & Hv).
  { intros p Hp'. destruct (Hd p Hp') as (H1 & H2 & H3 & H4).
    apply (C55_gemm_dhd o L cplx bmax kcode Hb Hreal same up down junk Hconv); cbn [isN]; auto; try lia.
    intros Hcx Hn1 Hb1. exfalso. apply (Hx Hcx Hb1 p Hp' Hn1). }
  exists v'. split; [reflexivity|]. intros s Hs p Hp'.
  eapply updated_P; [|exact (Hv p Hp')]. intros i j Hi Hj. unfold mul. apply sum_ext. intros l Hl. f_equal.
  unfold stored. apply Hms; auto. intros i' j' Hi' Hj'. rewrite Hs by auto. unfold global_sum, inner_products.
  apply sum_ext. intros p' Hp''. destruct (Hbufs p' Hp'') as [H1 _]. rewrite H1 by auto. unfold same_as, mul, adj. ring.
Qed.

(** One pass of the orthonormalisation of a vector, in exact arithmetic: the
    coefficients are the inner products over all processes with B x and the vector
    loses its components. *)
Theorem C55_ortho_pass : forall np nl V ldV i locked ldLocked numLocked x Bx,
  i + numLocked < bmax ->
  (forall p, p < np -> nl p < bmax /\ nl p <= ldV p /\ nl p <= ldLocked p) ->
  (same = true -> forall p, p < np -> (ldV p = nl p \/ i <= 1) /\ (ldLocked p = nl p \/ numLocked <= 1)) ->
  (cplx = true -> forall p, p < np -> nl p <> 1) ->
  (forall a, up a = a) -> (forall a, down a = a) ->
  exists ov x', ortho_pass o cplx bmax kcode same up down junk np nl V ldV i locked ldLocked numLocked x Bx
                = Some (ov, x') /\
    (forall c, c < i -> ov c =
       inner_products o np nl (fun p => stored (V p) (ldV p)) (fun p => strided (Bx p) 1) c 0) /\
    (forall c, c < numLocked -> ov (i + c) =
       inner_products o np nl (fun p => stored (locked p) (ldLocked p)) (fun p => strided (Bx p) 1) c 0) /\
    (forall p r, p < np -> r < nl p ->
       x' p r = x p r -k sum o numLocked (fun c => stored (locked p) (ldLocked p) r c *k ov (i + c))
                      -k sum o i (fun c => stored (V p) (ldV p) r c *k ov c)).
Proof.
  intros np nl V ldV i locked ldLocked numLocked x Bx Hi Hd Hl Hx Hup Hdn. unfold ortho_pass.
  destruct (gather_ok (fun p ov =>
      (forall c, c < i -> ov c = mul o (nl p) (adj o (stored (V p) (ldV p))) (strided (Bx p) 1) c 0) /\
      (forall c, c < numLocked -> ov (i + c) =
         mul o (nl p) (adj o (stored (locked p) (ldLocked p))) (strided (Bx p) 1) c 0)) np
      (fun p =>
      rbind (if 0 <? i then gemv_ddh o cplx bmax kcode same up junk trC (nl p) i (k1 o) (V p) (ldV p) (Bx p) 1 (k0 o) (fun _ => k0 o) 1
             else Done (fun _ => k0 o))
        (fun ov => if 0 <? numLocked then
           rbind (gemv_ddh o cplx bmax kcode same up junk trC (nl p) numLocked (k1 o) (locked p) (ldLocked p) (Bx p) 1 (k0 o)
                    (shift i ov) 1)
             (fun z => Done (set_at i numLocked ov z))
         else Done ov))) as (bufs & -> & Hbufs).
  { intros p Hp'. destruct (Hd p Hp') as (H1 & H2 & H3).
    assert (exists ov, (if 0 <? i then gemv_ddh o cplx bmax kcode same up junk trC (nl p) i (k1 o) (V p) (ldV p) (Bx p) 1 (k0 o) (fun _ => k0 o) 1
             else Done (fun _ => k0 o)) = Done ov /\
             forall c, c < i -> ov c = mul o (nl p) (adj o (stored (V p) (ldV p))) (strided (Bx p) 1) c 0) as (ov & -> & Hov).
    { destruct (0 <? i) eqn:E; [|apply Nat.ltb_ge in E; eexists; split; [reflexivity|lia]].
      destruct (C55_gemv_ddh o L cplx bmax kcode Hb Hreal same up down junk Hconv trC (nl p) i (k1 o) (V p) (ldV p) (Bx p) 1
                  (k0 o) (fun _ => k0 o) 1) as (ov & -> & [Hu _]); auto; try lia.
      { intros Hs. split; auto. apply Hl; auto. }
      exists ov. split; [reflexivity|]. intros c Hc. cbn [isN op] in Hu. specialize (Hu 0 c ltac:(lia) Hc).
      rewrite Nat.add_0_r, Nat.mul_1_r in Hu. rewrite Hu. unfold same_as.
      match goal with |- k1 o *k ?S +k k0 o *k k0 o = ?T => transitivity S; [ring|] end.
      unfold mul. apply sum_ext. intros. unfold adj, converted. rewrite !Hup. reflexivity. }
    cbn [rbind]. destruct (0 <? numLocked) eqn:E.
    - destruct (C55_gemv_ddh o L cplx bmax kcode Hb Hreal same up down junk Hconv trC (nl p) numLocked (k1 o) (locked p)
                  (ldLocked p) (Bx p) 1 (k0 o) (shift i ov) 1) as (z & -> & [Hu _]); auto; try lia.
      { intros Hs. split; auto. apply Hl; auto. }
      cbn [rbind]. eexists. split; [reflexivity|]. split.
      + intros c Hc. unfold set_at. rewrite (proj2 (Nat.leb_gt i c)) by lia. cbn [andb]. auto.
      + intros c Hc. unfold set_at. rewrite (proj2 (Nat.leb_le i (i + c))) by lia.
        rewrite (proj2 (Nat.ltb_lt (i + c) (i + numLocked))) by lia. cbn [andb].
        replace (i + c - i) with c by lia. cbn [isN op] in Hu. specialize (Hu 0 c ltac:(lia) Hc).
        rewrite Nat.add_0_r, Nat.mul_1_r in Hu. rewrite Hu. unfold same_as.
        match goal with |- k1 o *k ?S +k k0 o *k _ = ?T => transitivity S; [ring|] end.
        unfold mul. apply sum_ext. intros. unfold adj, converted. rewrite !Hup. reflexivity.
    - apply Nat.ltb_ge in E. eexists. split; [reflexivity|]. split; auto. lia. }
  set (ov := global_sum o np bufs).
  destruct (gather_ok (fun p x' => forall r, r < nl p ->
       x' r = x p r -k sum o numLocked (fun c => stored (locked p) (ldLocked p) r c *k ov (i + c))
                    -k sum o i (fun c => stored (V p) (ldV p) r c *k ov c)) np
     (fun p =>
      rbind (if 0 <? numLocked then gemv_dhd o cplx bmax kcode same up down junk trN (nl p) numLocked (kopp o (k1 o)) (locked p) (ldLocked p)
                                      (shift i ov) 1 (k1 o) (x p) 1
             else Done (x p))
        (fun x1 => if 0 <? i then gemv_dhd o cplx bmax kcode same up down junk trN (nl p) i (kopp o (k1 o)) (V p) (ldV p) ov 1 (k1 o) x1 1
                   else Done x1))) as (x' & -> & Hx').
  { intros p Hp'. destruct (Hd p Hp') as (H1 & H2 & H3).
    assert (exists x1, (if 0 <? numLocked then gemv_dhd o cplx bmax kcode same up down junk trN (nl p) numLocked (kopp o (k1 o)) (locked p) (ldLocked p)
                                      (shift i ov) 1 (k1 o) (x p) 1
             else Done (x p)) = Done x1 /\ forall r, r < nl p ->
       x1 r = x p r -k sum o numLocked (fun c => stored (locked p) (ldLocked p) r c *k ov (i + c))) as (x1 & -> & Hx1).
    { destruct (0 <? numLocked) eqn:E.
      - destruct (C55_gemv_dhd o L cplx bmax kcode Hb Hreal same up down junk Hconv trN (nl p) numLocked (kopp o (k1 o))
                    (locked p) (ldLocked p) (shift i ov) 1 (k1 o) (x p) 1) as (x1 & -> & [Hu _]); auto; try lia.
        { intros Hs. apply Hl; auto. }
        { intros Hcx. right. cbn [isN]. auto. }
        exists x1. split; [reflexivity|]. intros r Hr. cbn [isN op] in Hu. specialize (Hu 0 r ltac:(lia) Hr).
        rewrite Nat.add_0_r, Nat.mul_1_r in Hu. rewrite Hu, Hdn, Hup. unfold mul, strided.
        rewrite (sum_ext o numLocked _ (fun c => stored (locked p) (ldLocked p) r c *k ov (i + c))); [ring|].
        intros c _. unfold converted, shift. rewrite Hup, Nat.mul_1_r. reflexivity.
      - apply Nat.ltb_ge in E. exists (x p). split; [reflexivity|]. intros r _.
        replace numLocked with 0 by lia. cbn. ring. }
    cbn [rbind]. destruct (0 <? i) eqn:E.
    - destruct (C55_gemv_dhd o L cplx bmax kcode Hb Hreal same up down junk Hconv trN (nl p) i (kopp o (k1 o))
                  (V p) (ldV p) ov 1 (k1 o) x1 1) as (x2 & -> & [Hu _]); auto; try lia.
      { intros Hs. apply Hl; auto. }
      { intros Hcx. right. cbn [isN]. auto. }
      exists x2. split; [reflexivity|]. intros r Hr. cbn [isN op] in Hu. specialize (Hu 0 r ltac:(lia) Hr).
      rewrite Nat.add_0_r, Nat.mul_1_r in Hu. rewrite Hu, Hdn, Hup, Hx1 by auto. unfold mul, strided.
      rewrite (sum_ext o i _ (fun c => stored (V p) (ldV p) r c *k ov c)); [ring|].
      intros c _. unfold converted. rewrite Hup, Nat.mul_1_r. reflexivity.
    - apply Nat.ltb_ge in E. exists x1. split; [reflexivity|]. intros r Hr. rewrite Hx1 by auto.
      assert (Hz : forall f, sum o i f = k0 o) by (intros; replace i with 0 by lia; reflexivity).
      rewrite Hz. ring. }
  exists ov, x'. split; [reflexivity|]. repeat split.
  - intros c Hc. unfold ov, global_sum, inner_products. apply sum_ext. intros p Hp'.
    destruct (Hbufs p Hp') as [H1 _]. rewrite H1 by auto. reflexivity.
  - intros c Hc. unfold ov at 1, global_sum, inner_products. apply sum_ext. intros p Hp'.
    destruct (Hbufs p Hp') as [_ H1]. rewrite H1 by auto. reflexivity.
  - intros p r Hp' Hr. apply Hx'; auto.
Qed.
End Users.
