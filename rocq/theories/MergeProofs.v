(** Proofs about mergeSort. *)
From Verif Require Import Base Values RitzProofs MergeModel.
From Coq Require Import List Arith Bool Lia Permutation Sorted.
Import ListNotations.

Section M.
Context {V : Type} (o : vops V) (L : vlaws o).

(** Specification: in target order. *)
Definition in_order (t : target) (l : list V) : Prop :=
  match t with smallest => ascending o l | largest => descending o l | _ => False end.

Definition ord (t : target) (a b : V) : Prop :=
  match t with smallest => vleb o a b = true | largest => vleb o b a = true | _ => False end.

Lemma in_order_SS : forall t l, t = smallest \/ t = largest ->
  (in_order t l <-> StronglySorted (ord t) l).
Proof. intros t l [->| ->]; simpl; unfold ascending, descending; tauto. Qed.

Lemma before_ord : forall t a b, before o t a b = true -> ord t a b.
Proof. destruct t; simpl; intros; auto; discriminate. Qed.

Lemma before_total : forall t a b, t = smallest \/ t = largest ->
  before o t a b = false -> before o t b a = true.
Proof.
  intros t a b [->| ->] H; simpl in *.
  - destruct (vl_total o L a b); congruence.
  - destruct (vl_total o L a b); congruence.
Qed.

Lemma ord_trans : forall t a b c, ord t a b -> ord t b c -> ord t a c.
Proof. destruct t; simpl; intros; try contradiction; eapply (vl_trans o L); eauto. Qed.

(** [pos]: where each Ritz value went, strictly increasing from [count]. *)
Fixpoint positions_ok (count : nat) (out : list (option V)) (pos : list nat)
         (rz : list (V * flag)) : Prop :=
  match pos, rz with
  | [], [] => True
  | p :: pos', (r, _) :: rz' =>
      count <= p /\ nth_error out (p - count) = Some (Some r) /\
      Forall (fun q => p < q) pos' /\ positions_ok count out pos' rz'
  | _, _ => False
  end.

Fixpoint select_unconv (pos : list nat) (rz : list (V * flag)) : list nat :=
  match pos, rz with
  | p :: pos', (_, f) :: rz' =>
      if is_unconverged f then p :: select_unconv pos' rz' else select_unconv pos' rz'
  | _, _ => []
  end.

Lemma positions_ok_shift : forall pos rz count x out,
  positions_ok (S count) out pos rz -> positions_ok count (x :: out) pos rz.
Proof.
  induction pos as [|p pos IH]; destruct rz as [|[r f] rz]; simpl; auto.
  intros count x out [H1 [H2 [H3 H4]]]. split; [lia|]. split; [|split; auto].
  replace (p - count) with (S (p - S count)) by lia. auto.
Qed.

Lemma positions_ok_lower : forall pos rz count out,
  positions_ok count out pos rz -> Forall (fun q => count <= q) pos.
Proof.
  induction pos as [|p pos IH]; destruct rz as [|[r f] rz]; simpl; intros; try contradiction; auto.
  destruct H as [H1 [H2 [H3 H4]]]. constructor; auto. eapply IH; eauto.
Qed.

Lemma merge_loop_spec : forall t, t = smallest \/ t = largest ->
  forall m lk rz room count,
  m = length lk + length rz ->
  StronglySorted (ord t) lk -> StronglySorted (ord t) (map fst rz) ->
  exists out ilev pos, merge_loop o m t lk rz room count = Some (map Some out, ilev) /\
    Permutation out (lk ++ map fst rz) /\ StronglySorted (ord t) out /\
    positions_ok count (map Some out) pos rz /\
    ilev = firstn room (select_unconv pos rz).
Proof.
  intros t Ht. induction m; intros lk rz room count Hm HS1 HS2.
  - destruct lk, rz; simpl in Hm; try discriminate.
    exists [], [], []. simpl. repeat split; auto; try constructor. destruct room; auto.
  - cbn [merge_loop].
    (* taking a Ritz value that precedes every remaining one *)
    assert (TR : forall r f rz', rz = (r, f) :: rz' ->
       Forall (fun x => ord t r x) lk ->
       exists out ilev pos,
         (if (0 <? room) && is_unconverged f then
              q <- merge_loop o m t lk rz' (room - 1) (S count);
              Some (Some r :: fst q, count :: snd q)
            else
              q <- merge_loop o m t lk rz' room (S count);
              Some (Some r :: fst q, snd q)) = Some (map Some out, ilev) /\
         Permutation out (lk ++ map fst rz) /\ StronglySorted (ord t) out /\
         positions_ok count (map Some out) pos rz /\
         ilev = firstn room (select_unconv pos rz)).
    { intros r f rz' -> HF. simpl in HS2. inversion HS2; subst. simpl in Hm.
      assert (HH : forall room', exists out ilev pos,
         merge_loop o m t lk rz' room' (S count) = Some (map Some out, ilev) /\
         Permutation (r :: out) (lk ++ r :: map fst rz') /\ StronglySorted (ord t) (r :: out) /\
         positions_ok count (map Some (r :: out)) (count :: pos) ((r, f) :: rz') /\
         ilev = firstn room' (select_unconv pos rz')).
      { intros room'. destruct (IHm lk rz' room' (S count)) as [out [ilev [pos [E [P [S [Q I]]]]]]]; auto; try lia.
        exists out, ilev, pos. split; auto. split.
        { apply Permutation_cons_app. auto. }
        split.
        { constructor; auto. rewrite Forall_forall. intros x Hx.
          apply (Permutation_in _ P) in Hx. apply in_app_or in Hx.
          rewrite Forall_forall in *. destruct Hx; auto. }
        split; auto.
        cbn [positions_ok map]. split; [lia|]. rewrite Nat.sub_diag. split; auto.
        split; [apply positions_ok_lower in Q; eapply Forall_impl; [|exact Q]; simpl; intros; lia|].
        apply positions_ok_shift. auto. }
      destruct (is_unconverged f) eqn:EF.
      - destruct (Nat.ltb_spec 0 room); simpl andb.
        + destruct (HH (room - 1)) as [out [ilev [pos [E [P [S [Q I]]]]]]].
          cbn iota. rewrite E. cbn [bind fst snd]. exists (r :: out), (count :: ilev), (count :: pos).
          split; auto. split; auto. split; auto. split; auto.
          cbn [select_unconv]. rewrite EF. rewrite I.
          destruct room; [lia|]. simpl. rewrite Nat.sub_0_r. auto.
        + destruct (HH room) as [out [ilev [pos [E [P [S [Q I]]]]]]].
          rewrite E. cbn [bind fst snd]. exists (r :: out), ilev, (count :: pos).
          split; auto. split; auto. split; auto. split; auto.
          rewrite I. replace room with 0 by lia. auto.
      - rewrite andb_false_r.
        destruct (HH room) as [out [ilev [pos [E [P [S [Q I]]]]]]].
        rewrite E. cbn [bind fst snd]. exists (r :: out), ilev, (count :: pos).
        split; auto. split; auto. split; auto. split; auto.
        cbn [select_unconv]. rewrite EF. auto. }
    assert (TE : forall e lk', lk = e :: lk' ->
       Forall (fun x => ord t e x) (map fst rz) ->
       exists out ilev pos,
         (q <- merge_loop o m t lk' rz room (S count); Some (Some e :: fst q, snd q))
           = Some (map Some out, ilev) /\
         Permutation out (lk ++ map fst rz) /\ StronglySorted (ord t) out /\
         positions_ok count (map Some out) pos rz /\
         ilev = firstn room (select_unconv pos rz)).
    { intros e lk' -> HF. inversion HS1; subst. simpl in Hm.
      destruct (IHm lk' rz room (S count)) as [out [ilev [pos [E [P [S [Q I]]]]]]]; auto; try lia.
      rewrite E. cbn [bind fst snd]. exists (e :: out), ilev, pos.
      split; auto. split; [simpl; constructor; auto|].
      split.
      { constructor; auto. rewrite Forall_forall. intros x Hx.
        apply (Permutation_in _ P) in Hx. apply in_app_or in Hx.
        rewrite Forall_forall in *. destruct Hx; auto. }
      split; auto. apply positions_ok_shift; auto. }
    destruct lk as [|e lk'].
    + destruct rz as [|[r f] rz']; [simpl in Hm; discriminate|].
      apply TR; auto.
    + destruct rz as [|[r f] rz'].
      * apply TE; auto; constructor.
      * destruct (before o t r e) eqn:B1.
        -- apply TR; auto. inversion HS1; subst. constructor; [apply before_ord; auto|].
           eapply Forall_impl; [|exact H2]. intros x Hx. eapply ord_trans; [apply before_ord; eauto|auto].
        -- pose proof (before_total t r e Ht B1) as B2. rewrite B2.
           apply TE; auto. simpl in HS2. inversion HS2; subst. simpl. constructor; [apply before_ord; auto|].
           eapply Forall_impl; [|exact H2]. intros x Hx. eapply ord_trans; [apply before_ord; eauto|auto].
Qed.

End M.
