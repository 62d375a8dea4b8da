(** C56: all processes, the exception of a last row, and cases. *)
From Coq Require Import List Arith Bool Lia Field Setoid ZArith QArith Qcanon.
From Verif Require Import Base ProjModel SpecProj MatAlg BlasModel SpecBlas PropsBlas PropsBlas2 VwxrModel SpecVwxr PropsVwxr PropsBlas4.
Import ListNotations.
Local Open Scope nat_scope.
Notation fst := Datatypes.fst. Notation snd := Datatypes.snd.

Section Pieces.
Context {K : Type} (o : scal K) (L : laws o).
Variable cplx : bool. Variable pbs imax : nat. Variable sq : K -> K.
Hypothesis Hp : 2 <= pbs.
Add Field Kf : (l_field o L).
Variable J : @job K.
Hypothesis Lay : layout J.

(** No piece has a single row, or none of the three products has a single column. *)
Definition regular_rows (mV : nat) : Prop := mV mod pbs <> 1 \/
  (forall s, In s [spanX imax J; spanY imax J; spanBX imax J] -> snd s - fst s <> 1).
Lemma pieces_ok mem0 mV : (cplx = true -> regular_rows mV) -> forall fuel i m s,
  inv o J mem0 i s -> i <= mV -> (i < mV -> m = Nat.min pbs (mV - i)) -> (i mod pbs = 0 \/ i = mV) ->
  mV - i <= fuel ->
  exists s', pieces o cplx imax fuel J mV i m s = Some s' /\ inv o J mem0 mV s'.
Proof.
  intros Hx. induction fuel as [|f IH]; intros i m s Hi Hle Hm Hd Hf.
  - replace mV with i by lia. eexists. split; [reflexivity|auto].
  - cbn [pieces]. destruct (Nat.ltb_spec i mV) as [Hlt|Hge].
    2:{ replace mV with i by lia. eexists. split; [reflexivity|auto]. }
    specialize (Hm Hlt).
    assert (W : forall s, In s [spanX imax J; spanY imax J; spanBX imax J] -> okw cplx m s).
    { intros s0 Hs0. unfold okw. destruct cplx eqn:Ec; auto. cbn [andb].
      destruct (Nat.eqb_spec m 1) as [->|]; auto. destruct (Hx eq_refl) as [Hx'|Hx'].
      2:{ apply Nat.eqb_neq. auto. }
      exfalso. apply Hx'.
      destruct Hd as [Hd|Hd]; [|lia]. assert (E : mV = i + 1) by lia.
      rewrite E, Nat.add_mod, Hd by lia. cbn [Nat.add]. rewrite Nat.mod_mod by lia. apply Nat.mod_small. lia. }
    destruct (piece_ok o L cplx imax J mem0 Lay i m s Hi (W (spanX imax J) ltac:(cbn; auto)) (W (spanY imax J) ltac:(cbn; auto)) (W (spanBX imax J) ltac:(cbn; auto))) as (s1 & E1 & H1).
    rewrite E1. cbn [bind]. apply IH; auto; try lia.
    destruct (Nat.le_gt_cases pbs (mV - i)) as [Hc|Hc].
    + left. replace m with pbs by lia. destruct Hd as [Hd|Hd]; [|lia].
      rewrite Nat.add_mod, Hd, Nat.mod_same by lia. cbn [Nat.add]. apply Nat.mod_0_l. lia.
    + right. lia.
Qed.

Lemma local_ok mem0 mV : (cplx = true -> regular_rows mV) ->
  exists s, local o cplx pbs imax J mV mem0 = Some s /\ inv o J mem0 mV s.
Proof.
  intros Hx. unfold local. apply pieces_ok; auto; try lia.
  - unfold inv. cbn. repeat split; auto.
  - left. apply Nat.mod_0_l. lia.
Qed.

Lemma each_ok (P : nat -> @state K -> Prop) np f : (forall p, p < np -> exists s, f p = Some s /\ P p s) ->
  exists g, each o np f = Some g /\ forall p, p < np -> P p (g p).
Proof.
  induction np as [|n IH]; intros H.
  - eexists. split; [reflexivity|]. intros; lia.
  - destruct IH as (g & E & Hg); [intros; apply H; lia|]. destruct (H n) as (s & Es & Hs); [lia|].
    cbn [each]. rewrite E, Es. cbn [bind]. eexists. split; [reflexivity|]. intros p Hpn. cbv beta.
    destruct (Nat.eqb_spec p n) as [->|]; auto. apply Hg. lia.
Qed.

(** Each process's memory, the norms and the projected matrices after the call, in
    terms of the vectors before it: for any number of processes and rows, any
    ranges of columns, with outputs over the inputs. *)
Theorem C56_update : forall np mV mem,
  1 <= np -> (cplx = true -> forall p, p < np -> regular_rows (mV p)) ->
  (j_Rnorms J = true -> given (j_r J) = true) ->
  let V p := rotated o (mem p) (j_V J) (j_nV J) (j_h J) in
  let W p := rotated o (mem p) (ptr_or (j_W J) (j_V J)) (j_nV J) (j_h J) in
  let BV p := rotated o (mem p) (ptr_or (j_BV J) (j_V J)) (j_nV J) (j_h J) in
  let R p := residual o (mem p) J in
  let ip x y := inner o np mV x y in
  exists res, update_VWXR o cplx pbs imax sq np J mV mem = Some res /\
    (forall p, p < np ->
       (forall x, In x [j_x0 J; j_x1 J; j_x2 J] -> holds (mV p) (r_mem res p) x (V p)) /\
       holds (mV p) (r_mem res p) (j_wo J) (W p) /\
       (forall x, In x [j_bx0 J; j_bx1 J; j_bx2 J] -> holds (mV p) (r_mem res p) x (BV p)) /\
       holds (mV p) (r_mem res p) (j_r J) (R p) /\
       (forall a c r, mV p <= r \/ (forall x, In x (outputs J) -> covers x a c = false) ->
          r_mem res p a c r = mem p a c r)) /\
    (forall j, j_Rnorms J = true -> o_b (j_r J) + j < o_e (j_r J) ->
       r_R res j = sq (ip (fun p => R p (o_b (j_r J) + j)) (fun p => R p (o_b (j_r J) + j)))) /\
    (forall j, n_given (j_rn J) = true -> n_b (j_rn J) + j < n_e (j_rn J) ->
       r_r res j = sq (ip (fun p => R p (n_b (j_rn J) + j)) (fun p => R p (n_b (j_rn J) + j)))) /\
    (forall j, n_given (j_xn J) = true -> n_b (j_xn J) + j < n_e (j_xn J) ->
       r_x res j = sq (ip (fun p => V p (n_b (j_xn J) + j)) (fun p => V p (n_b (j_xn J) + j)))) /\
    (forall n a b, j_G J = Some n -> a < n -> b < n -> r_G res a b = ip (fun p => V p a) (fun p => BV p b)) /\
    (forall n a b, j_H J = Some n -> a < n -> b < n -> r_H res a b = ip (fun p => V p a) (fun p => W p b)).
Proof.
  intros np mV mem Hn Hx HRg V W BV R ip. unfold update_VWXR.
  destruct (each_ok (fun p s => inv o J (mem p) (mV p) s) np (fun p => local o cplx pbs imax J (mV p) (mem p)))
    as (st & -> & Hst).
  { intros p Hpn. apply local_ok. auto. }
  cbn [bind].
  assert (Hmem : forall p, p < np ->
       (forall x, In x [j_x0 J; j_x1 J; j_x2 J] -> holds (mV p) (s_mem (st p)) x (V p)) /\
       holds (mV p) (s_mem (st p)) (j_wo J) (W p) /\
       (forall x, In x [j_bx0 J; j_bx1 J; j_bx2 J] -> holds (mV p) (s_mem (st p)) x (BV p)) /\
       holds (mV p) (s_mem (st p)) (j_r J) (R p) /\
       (forall a c r, mV p <= r \/ (forall x, In x (outputs J) -> covers x a c = false) ->
          s_mem (st p) a c r = mem p a c r)).
  { intros p Hpn. destruct (Hst p Hpn) as (Hm & _).
    assert (Hh : forall x v, In (x, v) (values o J (mem p)) -> holds (mV p) (s_mem (st p)) x v).
    { intros x v Hin a c j r Hptr Hj Hr. rewrite Hm, (proj2 (Nat.ltb_lt _ _)) by auto.
      rewrite (fin_in o J (mem p) Lay x v); auto.
      - unfold start_of. rewrite Hptr. f_equal. lia.
      - unfold covers. rewrite Hptr, Nat.eqb_refl, (proj2 (Nat.leb_le _ _)), (proj2 (Nat.ltb_lt _ _)) by lia. reflexivity. }
    unfold values in Hh. cbn [In] in Hh.
    split; [|split; [|split; [|split]]].
    - intros x Hin. apply Hh. cbn [In] in Hin. unfold Vh. intuition (subst; auto).
    - apply Hh. unfold Wh. auto 10.
    - intros x Hin. apply Hh. cbn [In] in Hin. unfold Bh. intuition (subst; auto 10).
    - apply Hh. unfold Rh. auto 12.
    - intros a c r H. rewrite Hm. destruct H as [H|H].
      + now rewrite (proj2 (Nat.ltb_ge _ _)).
      + destruct (r <? mV p); auto. apply fin_out. auto. }
  assert (HI : forall x y, ip x y = sum o np (fun p => upto o (mV p) (x p) (y p))) by reflexivity.
  assert (One : forall f, np = 1 -> sum o np f = f 0).
  { intros f ->. cbn [sum]. ring. }
  assert (Pk : forall p, length (map (s_R (st p)) (seq 0 (lenR J))) = lenR J /\
                         length (map (s_r (st p)) (seq 0 (lenn (j_rn J)))) = lenn (j_rn J)).
  { intros p. rewrite !map_length, !seq_length. auto. }
  assert (Nm : forall (f : nat -> K) n j, j < n -> nth j (map f (seq 0 n)) (k0 o) = f j).
  { intros f n j Hj. rewrite (nth_indep _ (k0 o) (f 0)) by (rewrite map_length, seq_length; auto).
    rewrite map_nth, seq_nth by auto. reflexivity. }
  destruct (Nat.ltb_spec 1 np) as [Hn1|Hn1].
  - assert (Cap : capacity J <? length (packed J (st 0)) = false).
    { apply Nat.ltb_ge. unfold packed, capacity, lenR, lenn. rewrite !app_length, !map_length, !seq_length.
      destruct (j_Rnorms J), (n_given (j_rn J)), (n_given (j_xn J)); lia. }
    rewrite Cap.
    eexists. split; [reflexivity|]. cbn [r_mem r_R r_r r_x r_G r_H]. split; [exact Hmem|]. unfold total, packed.
    split; [|split; [|split; [|split]]].
    + intros j EN Hj. f_equal. rewrite HI. apply sum_ext. intros p Hpn.
      assert (Hl : j < lenR J) by (unfold lenR; rewrite EN; lia).
      rewrite app_nth1 by (rewrite (Logic.proj1 (Pk p)); auto). rewrite Nm by auto.
      apply (Hst p Hpn); auto.
    + intros j EN Hj. f_equal. rewrite HI. apply sum_ext. intros p Hpn.
      assert (Hl : j < lenn (j_rn J)) by (unfold lenn; rewrite EN; lia).
      rewrite app_nth2 by (rewrite (Logic.proj1 (Pk p)); lia).
      rewrite (Logic.proj1 (Pk p)). replace (lenR J + j - lenR J) with j by lia.
      rewrite app_nth1 by (rewrite (Logic.proj2 (Pk p)); auto). rewrite Nm by auto.
      apply (Hst p Hpn); auto.
    + intros j EN Hj. f_equal. rewrite HI. apply sum_ext. intros p Hpn.
      assert (Hl : j < lenn (j_xn J)) by (unfold lenn; rewrite EN; lia).
      rewrite app_nth2 by (rewrite (Logic.proj1 (Pk p)); lia).
      rewrite app_nth2 by (rewrite (Logic.proj1 (Pk p)), (Logic.proj2 (Pk p)); lia).
      rewrite (Logic.proj1 (Pk p)), (Logic.proj2 (Pk p)).
      replace (lenR J + lenn (j_rn J) + j - lenR J - lenn (j_rn J)) with j by lia. rewrite Nm by auto.
      apply (Hst p Hpn); auto.
    + intros n a b EG Ha Hb. rewrite HI. apply sum_ext. intros p Hpn. apply (Hst p Hpn) with (n := n); auto.
    + intros n a b EG Ha Hb. rewrite HI. apply sum_ext. intros p Hpn. apply (Hst p Hpn) with (n := n); auto.
  - assert (E1 : np = 1) by lia. assert (H0 : 0 < np) by lia.
    eexists. split; [reflexivity|]. cbn [r_mem r_R r_r r_x r_G r_H]. split; [exact Hmem|].
    split; [|split; [|split; [|split]]].
    + intros j EN Hj. f_equal. rewrite HI, One by auto. apply (Hst 0 H0); auto.
    + intros j EN Hj. f_equal. rewrite HI, One by auto. apply (Hst 0 H0); auto.
    + intros j EN Hj. f_equal. rewrite HI, One by auto. apply (Hst 0 H0); auto.
    + intros n a b EG Ha Hb. rewrite HI, One by auto. apply (Hst 0 H0) with (n := n); auto.
    + intros n a b EG Ha Hb. rewrite HI, One by auto. apply (Hst 0 H0) with (n := n); auto.
Qed.
End Pieces.

(** The calls of the solver have such a layout. *)
Ltac lay := unfold apart, disjoint, covers; cbn -[Nat.eqb Nat.leb Nat.ltb Nat.sub Nat.add];
  intros; repeat rewrite andb_true_iff in *; repeat rewrite andb_false_iff in *;
  rewrite ?Nat.eqb_eq, ?Nat.eqb_neq, ?Nat.leb_le, ?Nat.leb_gt, ?Nat.ltb_lt, ?Nat.ltb_ge in *; try discriminate; try lia.
Ltac pairs := repeat first [apply FOP_nil | apply FOP_cons | apply Forall_nil | apply Forall_cons].
Theorem C56_callers : forall {K} (o : scal K) hasB hasBe G H basisSize rs sb h vals,
  (forall left packed ev, layout (@restart_job K hasB hasBe G H basisSize rs sb left packed ev h vals)) /\
  (forall nc oc, layout (@soft_job K hasB hasBe G H basisSize rs nc sb oc h vals)) /\
  (forall xr bs, layout (@candidates_job K hasB xr basisSize bs sb h vals)) /\
  (forall nc, layout (@last_job K hasB basisSize nc sb h vals)) /\
  layout (refined_job o G basisSize rs h).
Proof.
  intros K o hasB hasBe G H basisSize rs sb h vals. repeat split.
  all: try match goal with |- ForallOrdPairs _ _ => unfold outputs; destruct hasB, hasBe; cbn; pairs; lay end.
  all: try (intros x W Hin E; cbn in E; destruct hasB; (discriminate || (injection E as <-; cbn in Hin;
     repeat destruct Hin as [<-|Hin]; try destruct Hin; lay))).
  all: try (intros _; cbn; discriminate).
  all: try (cbn; destruct hasB; [discriminate|]; intros _; cbn; auto; fail).
  all: try (destruct hasB; cbn; auto; discriminate).
  all: try (cbn; intros [E|[E|[E|E]]]; try discriminate; lia).
Qed.
