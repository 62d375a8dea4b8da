(** C45: the shifts handed to the user's preconditioner. *)
From Coq Require Import List Arith Bool Reals Lra Lia Permutation Sorting.Sorted.
From Verif Require Import Base Values MergeModel MergeProofs PropsOrder ShiftModel.
Import ListNotations.
Local Open Scope R_scope.

(** ** Specification *)
(** Indices of the pairs not converged, in order. *)
Fixpoint unconverged (i : nat) (rz : list (R * flag)) : list nat :=
  match rz with
  | [] => []
  | (_, UNCONVERGED) :: t => i :: unconverged (S i) t
  | _ :: t => unconverged (S i) t
  end.

(** [y] is the point closest to [t] among those within [rho] of [x]. *)
Definition closest (t x rho y : R) : Prop :=
  Rabs (y - x) <= rho /\ forall z, Rabs (z - x) <= rho -> Rabs (y - t) <= Rabs (z - t).

(** [a] is wanted strictly before [b]. *)
Definition sooner (t : target) (a b : R) : Prop :=
  match t with smallest => a < b | largest => b < a | _ => False end.

(** The shift [y] of a pair with value [x] and residual norm [r]: on the wanted side of the
    value, no farther than the bound of the error, and not past a value wanted sooner. *)
Definition robust_ok (p : sparams) (values : list R) (x r y : R) : Prop :=
  match tgt p with
  | smallest => y <= x /\ x - y <= r * Rmax (sqrt (invB p)) (invB p) /\
                forall v, In v values -> v < x -> v <= y
  | largest => x <= y /\ y - x <= r * Rmax (sqrt (invB p)) (invB p) /\
               forall v, In v values -> x < v -> y <= v
  | _ => False
  end.

(** The target shift of the next pair. *)
Definition next_target (p : sparams) (done : nat) : R :=
  match targetShifts p with [] => 0 | l => nth (Nat.min done (length l - 1)) l 0 end.

(** ** Proofs *)
Lemma leb_le : forall x y, leb x y = true <-> x <= y.
Proof. intros. unfold leb. destruct (Rle_dec x y); split; auto; discriminate || lra. Qed.
Lemma ltb_lt : forall x y, ltb x y = true <-> x < y.
Proof. intros. unfold ltb. destruct (Rlt_dec x y); split; auto; discriminate || lra. Qed.
Lemma ltb_ge : forall x y, ltb x y = false <-> y <= x.
Proof. intros. unfold ltb. destruct (Rlt_dec x y); split; intros; try discriminate; try lra; auto. Qed.

Lemma Rlaws : vlaws Rops.
Proof.
  constructor; unfold vdist; cbn [vleb vltb veqb vsub vabs vneg Rops]; intros; rewrite ?leb_le in *; try lra.
  - unfold ltb, leb. destruct (Rlt_dec a b), (Rle_dec b a); auto; lra.
  - unfold eqb. destruct (Req_EM_T a b); split; intros; try discriminate; lra || (exfalso; lra).
  - rewrite !Rabs_right; lra.
  - rewrite !Rabs_left1; lra.
Qed.

Lemma written_some : forall l, written (map Some l) = Some l.
Proof. induction l; cbn; auto. rewrite IHl. auto. Qed.

Lemma select_at : forall rz pos out c k u i0,
  positions_ok c out pos rz -> nth_error (unconverged i0 rz) k = Some u ->
  (i0 <= u)%nat /\ exists q v, nth_error (select_unconv pos rz) k = Some q /\ (c <= q)%nat /\
    nth_error out (q - c) = Some (Some v) /\ nth_error (map fst rz) (u - i0) = Some v.
Proof.
  induction rz as [|[r f] rz IH]; intros pos out c k u i0 Hp Hk.
  - destruct k; discriminate.
  - destruct pos as [|q pos]; [contradiction|]. cbn in Hp. destruct Hp as (H1 & H2 & H3 & H4).
    assert (Later : forall k', nth_error (unconverged (S i0) rz) k' = Some u ->
      (i0 <= u)%nat /\ exists q' v, nth_error (select_unconv pos rz) k' = Some q' /\ (c <= q')%nat /\
       nth_error out (q' - c) = Some (Some v) /\ nth_error (map fst ((r, f) :: rz)) (u - i0) = Some v).
    { intros k' Hk'. destruct (IH pos out c k' u (S i0) H4 Hk') as (L & q' & v & A & B & C & D).
      split; [lia|]. exists q', v. split; auto. split; auto. split; auto.
      cbn [map fst]. replace (u - i0)%nat with (S (u - S i0)) by lia. exact D. }
    destruct f; cbn [unconverged] in Hk; cbn [select_unconv is_unconverged]; try (apply Later; exact Hk).
    destruct k as [|k]; cbn [nth_error] in Hk |- *; [|apply Later; exact Hk]. inversion Hk; subst u. split; [lia|].
    exists q, r. split; auto. split; auto. split; auto. replace (i0 - i0)%nat with 0%nat by lia. reflexivity.
Qed.

Lemma SS_nth : forall (ord : R -> R -> Prop) l i j x y, StronglySorted ord l -> (i < j)%nat ->
  nth_error l i = Some x -> nth_error l j = Some y -> ord x y.
Proof.
  induction l; intros i j x y Hs Hij Hi Hj; [destruct i; discriminate|].
  inversion Hs as [|? ? Hs' Hf]; subst. destruct j; [lia|]. destruct i; cbn in *.
  - inversion Hi; subst. rewrite Forall_forall in Hf. apply Hf. eapply nth_error_In; eauto.
  - eapply IHl; [eauto| |eauto|eauto]. lia.
Qed.

Definition later (t : target) (a b : R) : Prop := match t with smallest => a <= b | _ => b <= a end.
Definition in_line (t : target) (l : list R) : Prop := StronglySorted (later t) l.

Lemma in_order_line : forall t l, t = smallest \/ t = largest -> (in_order Rops t l <-> in_line t l).
Proof.
  intros t l Ht. rewrite in_order_SS by (apply Rlaws || auto). unfold in_line.
  assert (E : forall a b, ord Rops t a b <-> later t a b).
  { intros a b. unfold ord, later. destruct Ht; subst; cbn; rewrite leb_le; reflexivity. }
  split; intros H; induction H; constructor; auto; eapply Forall_impl; try eassumption; cbn; intros; apply E; auto.
Qed.

Lemma sqrt_inv_pos : forall b, 0 <= sqrt b. Proof. apply sqrt_pos. Qed.

(** The robust shift is not negative and at most the bound of the error. *)
Lemma robust_bound : forall p i res prev s e d,
  0 <= res -> 0 <= invB p -> 0 <= machine_max p ->
  robust_shift p i res prev s = Some (e, d) ->
  0 <= e /\ e <= res * Rmax (sqrt (invB p)) (invB p).
Proof.
  intros p i res prev s e d Hr Hb Hm. unfold robust_shift.
  pose proof (sqrt_pos (invB p)) as Hs.
  pose proof (Rmax_l (sqrt (invB p)) (invB p)) as M1. pose proof (Rmax_r (sqrt (invB p)) (invB p)) as M2.
  assert (B1 : res * sqrt (invB p) <= res * Rmax (sqrt (invB p)) (invB p)) by (apply Rmult_le_compat_l; auto).
  assert (B2 : res * invB p <= res * Rmax (sqrt (invB p)) (invB p)) by (apply Rmult_le_compat_l; auto).
  assert (B0 : 0 <= res * sqrt (invB p)) by (apply Rmult_le_pos; auto).
  destruct (outer p <=? 1)%nat; [intros E; inversion E; subst; lra|].
  intros E.
  match type of E with bind ?q _ = _ => destruct q as [[low gap]|] eqn:El; cbn [bind] in E; [|discriminate] end.
  match type of E with bind ?q _ = _ => destruct q as [delta|] eqn:Ed; cbn [bind] in E; [|discriminate] end.
  cbn [fst snd] in E.
  assert (Hl : 0 <= low).
  { destruct ((i =? 0)%nat && (2 <=? length s)%nat).
    - destruct (get s 1); cbn [bind] in El; [|discriminate]. destruct (get s 0); cbn [bind] in El; [|discriminate].
      inversion El; subst; auto.
    - destruct ((0 <? i)%nat && (2 <=? length s)%nat && (i + 1 <? length s)%nat).
      + destruct (get s i); cbn [bind] in El; [|discriminate]. destruct (get_before s i); cbn [bind] in El; [|discriminate].
        destruct (get s (i + 1)); cbn [bind] in El; [|discriminate]. inversion El; subst. apply Rabs_pos.
      + destruct (get s i); cbn [bind] in El; [|discriminate]. destruct (get_before s i); cbn [bind] in El; [|discriminate].
        inversion El; subst. apply Rabs_pos. }
  assert (Hd : 0 <= delta).
  { destruct (i <? length prev)%nat; [|inversion Ed; subst; auto].
    destruct (get prev i); cbn [bind] in Ed; [|discriminate]. destruct (get s i); cbn [bind] in Ed; [|discriminate].
    inversion Ed; subst. apply Rabs_pos. }
  destruct (ltb res gap) eqn:Eg; cbn [bind] in E; inversion E; subst e d; clear E.
  - apply ltb_lt in Eg. assert (G : 0 < gap) by lra.
    assert (Q0 : 0 <= res * res * invB p / gap).
    { apply Rmult_le_pos; [repeat apply Rmult_le_pos; auto|]. left; apply Rinv_0_lt_compat; auto. }
    assert (Q1 : res * res * invB p / gap <= res * invB p).
    { apply (Rmult_le_reg_r gap); auto. unfold Rdiv. rewrite Rmult_assoc, Rinv_l by lra. rewrite Rmult_1_r.
      replace (res * res * invB p) with (res * invB p * res) by ring.
      apply Rmult_le_compat_l; [apply Rmult_le_pos; auto|lra]. }
    split.
    + repeat apply Rmin_glb; auto.
    + eapply Rle_trans; [apply Rmin_r|]. eapply Rle_trans; [apply Rmin_l|]. lra.
  - split; [apply Rmin_glb; auto|]. eapply Rle_trans; [apply Rmin_l|]. lra.
Qed.

Lemma robust_defined : forall p i res prev s x,
  nth_error s i = Some x -> (outer p <= 1 \/ 2 <= length s)%nat ->
  exists q, robust_shift p i res prev s = Some q.
Proof.
  intros p i res prev s x Hx Hn. unfold robust_shift.
  destruct (Nat.leb_spec (outer p) 1); [eauto|]. destruct Hn as [|Hn]; [lia|].
  assert (Hi : (i < length s)%nat) by (apply nth_error_Some; congruence).
  assert (G : forall k, (k < length s)%nat -> exists y, get s k = Some y).
  { intros k Hk. unfold get. destruct (nth_error s k) eqn:E; eauto. apply nth_error_None in E; lia. }
  cbv zeta.
  match goal with |- exists _, bind ?e _ = _ => assert (exists lg, e = Some lg) as [lg ->] end.
  { rewrite (proj2 (Nat.leb_le 2 _) Hn), !andb_true_r.
    destruct i as [|i].
    - cbn [Nat.eqb]. destruct (G 1%nat) as [? ->]; [lia|]. destruct (G 0%nat) as [? ->]; [lia|]. cbn [bind]; eauto.
    - cbn [Nat.eqb]. cbn [get_before]. destruct (G (S i)) as [? ->]; [lia|]. destruct (G i) as [? ->]; [lia|].
      destruct (Nat.ltb_spec (S i + 1) (length s)); cbn [andb Nat.ltb Nat.leb bind].
      + destruct (G (S i + 1)%nat) as [? ->]; [lia|]. cbn [bind]; eauto.
      + eauto. }
  cbn [bind].
  match goal with |- exists _, bind ?e _ = _ => assert (exists d, e = Some d) as [d ->] end.
  { destruct (Nat.ltb_spec i (length prev)); [|eauto]. destruct (G i) as [y ->]; [lia|]. unfold get.
    destruct (nth_error prev i) eqn:E; [cbn; eauto|]. apply nth_error_None in E; lia. }
  cbn [bind]. destruct (ltb res (snd lg)); cbn [bind]; eauto.
Qed.

(** One vector, extreme target. *)
Lemma extreme_one : forall p i res prev s x,
  tgt p = smallest \/ tgt p = largest -> in_line (tgt p) s ->
  0 <= res -> 0 <= invB p -> 0 <= machine_max p ->
  nth_error s i = Some x -> (outer p <= 1 \/ 2 <= length s)%nat ->
  exists y e, extreme_shift p i res prev s = Some (y, e) /\ robust_ok p s x res y.
Proof.
  intros p i res prev s x Ht Hs Hr Hb Hm Hx Hn.
  destruct (robust_defined p i res prev s x Hx Hn) as [[e d] E].
  destruct (robust_bound p i res prev s e d Hr Hb Hm E) as [E0 E1].
  unfold extreme_shift, get. rewrite Hx; cbn [bind]. rewrite E; cbn [bind fst snd].
  assert (Hi : (i < length s)%nat) by (apply nth_error_Some; congruence).
  assert (Prev : forall v, In v s -> sooner (tgt p) v x ->
     exists k b, i = S k /\ nth_error s k = Some b /\ later (tgt p) v b).
  { intros v Hv Hso. apply In_nth_error in Hv. destruct Hv as [j Hj].
    assert (j < i)%nat.
    { destruct (Nat.lt_trichotomy j i) as [L|[->|L]]; auto.
      - rewrite Hx in Hj; inversion Hj; subst. destruct Ht as [T|T]; rewrite T in Hso; cbn in Hso; lra.
      - pose proof (SS_nth _ s i j x v Hs L Hx Hj) as Q. destruct Ht as [T|T]; rewrite T in *; cbn in *; lra. }
    destruct i as [|k]; [lia|]. destruct (nth_error s k) as [b|] eqn:Eb.
    - exists k, b. split; auto. split; auto. destruct (Nat.eq_dec j k) as [->|].
      + rewrite Eb in Hj; inversion Hj. destruct Ht as [T|T]; rewrite T; cbn; lra.
      + eapply (SS_nth _ s j k); eauto. lia.
    - apply nth_error_None in Eb; lia. }
  assert (Before : forall k, i = S k -> exists b, nth_error s k = Some b /\ later (tgt p) b x).
  { intros k ->. destruct (nth_error s k) as [b|] eqn:Eb; [|apply nth_error_None in Eb; lia].
    exists b; split; auto. apply (SS_nth _ s k (S k)); auto. }
  unfold robust_ok. destruct Ht as [T|T]; rewrite T in *; cbn [later sooner] in *.
  - destruct i as [|k]; cbn [Nat.ltb Nat.leb].
    + eexists _, _; split; [reflexivity|]. split; [lra|]. split; [lra|].
      intros v Hv L. destruct (Prev v Hv L) as (k & b & Q & _). discriminate.
    + destruct (Before k eq_refl) as (b & Eb & Lb). cbn [get_before]. unfold get. rewrite Eb; cbn [bind].
      eexists _, _; split; [reflexivity|]. pose proof (Rmax_l (x - e) b). pose proof (Rmax_r (x - e) b).
      split; [apply Rmax_lub; lra|]. split; [lra|].
      intros v Hv L. destruct (Prev v Hv L) as (k' & b' & Q & Q' & Q''). inversion Q; subst k'.
      rewrite Eb in Q'; inversion Q'; subst. lra.
  - destruct i as [|k]; cbn [Nat.ltb Nat.leb].
    + eexists _, _; split; [reflexivity|]. split; [lra|]. split; [lra|].
      intros v Hv L. destruct (Prev v Hv L) as (k & b & Q & _). discriminate.
    + destruct (Before k eq_refl) as (b & Eb & Lb). cbn [get_before]. unfold get. rewrite Eb; cbn [bind].
      eexists _, _; split; [reflexivity|]. pose proof (Rmin_l (x + e) b). pose proof (Rmin_r (x + e) b).
      split; [apply Rmin_glb; lra|]. split; [lra|].
      intros v Hv L. destruct (Prev v Hv L) as (k' & b' & Q & Q' & Q''). inversion Q; subst k'.
      rewrite Eb in Q'; inversion Q'; subst. lra.
Qed.

Lemma block_ok : forall p nl ritz prev s (ok : nat -> R -> R -> Prop) iev ilev norms,
  length norms = length iev ->
  (forall k iv r, nth_error iev k = Some iv -> nth_error norms k = Some r ->
     exists il q, nth_error ilev k = Some il /\
     (if is_extreme (tgt p) then
        if robust p then extreme_shift p il r prev s else plain_shift p ritz iv il r prev s
      else interior_shift p nl il r prev s) = Some q /\ ok iv r (fst q)) ->
  exists l, block_shifts p nl ritz prev s iev ilev norms = Some l /\ length l = length iev /\
    forall k iv r, nth_error iev k = Some iv -> nth_error norms k = Some r ->
      exists q, nth_error l k = Some q /\ ok iv r (fst q).
Proof.
  intros p nl ritz prev s ok. induction iev as [|iv iev IH]; intros ilev norms Hl Hk.
  - exists []. cbn. repeat split; auto. intros k ? ? Q; destruct k; discriminate.
  - destruct norms as [|r norms]; [discriminate|].
    destruct (Hk 0%nat iv r eq_refl eq_refl) as (il & q & E1 & E2 & O).
    destruct ilev as [|il' ilev]; [discriminate|]. cbn in E1. inversion E1; subst il'.
    destruct (IH ilev norms) as (l & E & Ln & K).
    { cbn in Hl; lia. }
    { intros k iv' r' A B. apply (Hk (S k)); auto. }
    exists (q :: l). cbn [block_shifts]. rewrite E2; cbn [bind]. rewrite E; cbn [bind].
    split; auto. split; [cbn; lia|]. intros k iv' r' A B. destruct k; cbn in A, B.
    + inversion A; inversion B; subst. exists q; split; auto.
    + destruct (K k iv' r' A B) as (q' & ? & ?). exists q'; split; auto.
Qed.

(** Which list the shifts are chosen from, and where each vector of the block is in it. *)
Lemma sorted_values : forall p locked ritz b,
  tgt p = smallest \/ tgt p = largest ->
  (locking p = false -> locked = []) ->
  in_order Rops (tgt p) locked -> in_order Rops (tgt p) (map fst ritz) ->
  (b <= length (unconverged 0 ritz))%nat ->
  exists s ilev,
    (if locking p && is_extreme (tgt p) then
           q <- mergeSort Rops (tgt p) locked ritz (length (firstn b (unconverged 0 ritz)));
           s <- written (fst q);
           Some (s, snd q)
         else Some (map fst ritz, firstn b (unconverged 0 ritz))) = Some (s, ilev) /\
    Permutation s (locked ++ map fst ritz) /\ in_line (tgt p) s /\
    forall k u, nth_error (firstn b (unconverged 0 ritz)) k = Some u ->
      exists il v, nth_error ilev k = Some il /\ nth_error s il = Some v /\ nth_error (map fst ritz) u = Some v.
Proof.
  intros p locked ritz b Ht Hl H1 H2 Hb.
  assert (Ex : is_extreme (tgt p) = true) by (destruct Ht as [T|T]; rewrite T; auto).
  assert (Fn : forall {T} (l : list T) k u, nth_error (firstn b l) k = Some u -> nth_error l k = Some u /\ (k < b)%nat).
  { intros T l k u Hk. assert (L : (k < length (firstn b l))%nat) by (apply nth_error_Some; congruence).
    rewrite firstn_length in L. split; [|lia]. rewrite <- (firstn_skipn b l), nth_error_app1; auto.
    rewrite firstn_length; lia. }
  rewrite Ex, andb_true_r. destruct (locking p) eqn:El.
  - destruct (C23_merge_complete_and_ordered R Rops (tgt p) locked ritz (length (firstn b (unconverged 0 ritz))) Rlaws Ht H1 H2)
      as (s & ilev & pos & E & P & O & Po & I).
    rewrite E; cbn [bind fst snd]. rewrite written_some; cbn [bind].
    exists s, ilev. split; auto. split; auto. split; [apply in_order_line; auto|].
    intros k u Hk. apply Fn in Hk. destruct Hk as [Hk Lk].
    destruct (select_at ritz pos (map Some s) 0 k u 0 Po Hk) as (_ & q & v & A & _ & C & D).
    exists q, v. rewrite Nat.sub_0_r in C, D. split; [|split; auto].
    + rewrite I, firstn_length, Nat.min_l by lia.
      rewrite <- (firstn_skipn b (select_unconv pos ritz)) in A. rewrite nth_error_app1 in A; auto.
      rewrite firstn_length. assert (k < length (select_unconv pos ritz))%nat; [|lia].
      rewrite firstn_skipn in A. apply nth_error_Some; congruence.
    + rewrite nth_error_map in C. destruct (nth_error s q); cbn in C; inversion C; auto.
  - rewrite (Hl eq_refl). exists (map fst ritz), (firstn b (unconverged 0 ritz)). split; auto. split; auto.
    split; [apply in_order_line; auto|]. intros k u Hk0. destruct (Fn _ _ _ _ Hk0) as [Hk _].
    assert (L : forall rz k i0, nth_error (unconverged i0 rz) k = Some u -> (i0 <= u < i0 + length rz)%nat).
    { clear. induction rz as [|[r f] rz IH]; intros k i0 H; [destruct k; discriminate|].
      destruct f; cbn [unconverged] in H; try (specialize (IH k (S i0) H); cbn; lia).
      destruct k; cbn in H; [inversion H; cbn; lia|]. specialize (IH k (S i0) H); cbn; lia. }
    specialize (L ritz k 0%nat Hk). destruct (nth_error (map fst ritz) u) as [v|] eqn:Ev.
    + exists u, v. auto.
    + apply nth_error_None in Ev. rewrite map_length in Ev. lia.
Qed.

(** C45, extreme targets: every vector of the block has its own shift, on the wanted side
    of its Ritz value (robust shifts) or equal to it. *)
Theorem C45_extreme : forall p locked ritz prev b norms,
  tgt p = smallest \/ tgt p = largest ->
  (locking p = false -> locked = []) ->
  in_order Rops (tgt p) locked -> in_order Rops (tgt p) (map fst ritz) ->
  (b <= length (unconverged 0 ritz))%nat -> length norms = b -> (forall r, In r norms -> 0 <= r) ->
  0 <= invB p -> 0 <= machine_max p ->
  (robust p = false \/ outer p <= 1 \/ 2 <= length locked + length ritz)%nat ->
  exists r, correction_shifts p locked ritz prev (firstn b (unconverged 0 ritz)) norms = Some r /\
    length (given r) = b /\
    Permutation (next_prev r) (locked ++ map fst ritz) /\ in_order Rops (tgt p) (next_prev r) /\
    forall k u x nr, nth_error (unconverged 0 ritz) k = Some u -> nth_error (map fst ritz) u = Some x ->
      nth_error norms k = Some nr ->
      exists y, nth_error (given r) k = Some y /\
        if robust p then robust_ok p (locked ++ map fst ritz) x nr y else y = x.
Proof.
  intros p locked ritz prev b norms Ht Hl H1 H2 Hb Hn Hpos HB HM Hdef.
  assert (Ex : is_extreme (tgt p) = true) by (destruct Ht as [T|T]; rewrite T; auto).
  assert (Hlen : length (firstn b (unconverged 0 ritz)) = b) by (rewrite firstn_length; lia).
  destruct (sorted_values p locked ritz b Ht Hl H1 H2 Hb) as (s & ilev & E & P & S & At).
  unfold correction_shifts. rewrite E; cbn [bind fst snd].
  assert (Ls : length s = (length locked + length ritz)%nat).
  { rewrite (Permutation_length P), app_length, map_length; auto. }
  destruct (block_ok p (length locked) (map fst ritz) prev s
     (fun u r y => forall x, nth_error (map fst ritz) u = Some x ->
        if robust p then robust_ok p (locked ++ map fst ritz) x r y else y = x)
     (firstn b (unconverged 0 ritz)) ilev norms) as (l & El & Ln & K).
  { lia. }
  { intros k u r Hk Hr. destruct (At k u Hk) as (il & v & A & B & C). exists il. rewrite Ex.
    destruct (robust p) eqn:Er.
    - destruct (extreme_one p il r prev s v) as (y & e & Ey & Oy); auto.
      { apply Hpos. eapply nth_error_In; eauto. }
      { destruct Hdef as [?|[?|?]]; [discriminate|auto|right; lia]. }
      exists (y, e). split; auto. split; auto. cbn [fst]. intros x Hx. rewrite C in Hx; inversion Hx; subst x.
      unfold robust_ok in *. destruct (tgt p); auto; (split; [apply Oy|split; [apply Oy|]]); intros w Hw; apply Oy;
        eapply Permutation_in; try apply Permutation_sym; eauto.
    - unfold plain_shift, get. rewrite C; cbn [bind].
      destruct (Nat.ltb_spec il (length prev)).
      + destruct (nth_error prev il) eqn:Ep; [|apply nth_error_None in Ep; lia]. cbn [bind]. rewrite B; cbn [bind].
        eexists; split; [eauto|]. split; [reflexivity|]. cbn. intros x Hx; congruence.
      + cbn [bind]. eexists; split; [eauto|]. split; [reflexivity|]. cbn. intros x Hx; congruence. }
  rewrite El; cbn [bind]. eexists; split; [reflexivity|]. cbn [given next_prev].
  split; [rewrite map_length; lia|].
  rewrite Ex, firstn_all2 by lia. split; [exact P|]. split; [apply in_order_line; auto|].
  intros k u x nr Hk Hx Hnr.
  assert (Lk : (k < b)%nat) by (rewrite <- Hn; apply nth_error_Some; congruence).
  assert (Hk' : nth_error (firstn b (unconverged 0 ritz)) k = Some u).
  { rewrite <- (firstn_skipn b (unconverged 0 ritz)), nth_error_app1 in Hk by lia. exact Hk. }
  destruct (K k u nr Hk' Hnr) as (q & Eq & O). exists (fst q). split; [|apply O; auto].
  rewrite nth_error_map, Eq. reflexivity.
Qed.

(** C45, other targets: the shift is the point closest to the target within the error of
    the Ritz value, or with refined extraction the target if it is that close, else the
    Ritz value. *)
Theorem C45_interior : forall p locked ritz prev iev norms,
  is_extreme (tgt p) = false ->
  length norms = length iev -> (forall u, In u iev -> (u < length ritz)%nat) ->
  (forall r, In r norms -> 0 < r) -> 0 < invB p ->
  exists r, correction_shifts p locked ritz prev iev norms = Some r /\
    length (given r) = length iev /\ next_prev r = map fst ritz /\
    forall k u x nr, nth_error iev k = Some u -> nth_error (map fst ritz) u = Some x ->
      nth_error norms k = Some nr ->
      exists y, nth_error (given r) k = Some y /\
        let t := next_target p (length locked) in
        let rho := nr * sqrt (invB p) in
        if refined p then (Rabs (x - t) < rho /\ y = t) \/ (rho <= Rabs (x - t) /\ y = x)
        else closest t x rho y.
Proof.
  intros p locked ritz prev iev norms Ht Hn Hu Hpos HB.
  assert (Us : user_shift p (length locked) = Some (next_target p (length locked))).
  { unfold user_shift, next_target. destruct (targetShifts p) as [|a l]; auto. unfold get.
    rewrite Nat.min_comm. apply nth_error_nth'. cbn [length]. lia. }
  assert (Hsq : 0 < sqrt (invB p)) by (apply sqrt_lt_R0; auto).
  unfold correction_shifts. rewrite Ht, andb_false_r. cbn [bind fst snd].
  destruct (block_ok p (length locked) (map fst ritz) prev (map fst ritz)
     (fun u nr y => forall x, nth_error (map fst ritz) u = Some x ->
        let t := next_target p (length locked) in
        let rho := nr * sqrt (invB p) in
        if refined p then (Rabs (x - t) < rho /\ y = t) \/ (rho <= Rabs (x - t) /\ y = x)
        else closest t x rho y) iev iev norms Hn) as (l & El & Ln & K).
  { intros k u nr Hk Hr. exists u. rewrite Ht. unfold interior_shift, get. rewrite Us; cbn [bind].
    assert (Lu : (u < length ritz)%nat) by (apply Hu; eapply nth_error_In; eauto).
    destruct (nth_error (map fst ritz) u) as [x|] eqn:Ex; [|apply nth_error_None in Ex; rewrite map_length in Ex; lia].
    cbn [bind]. set (t := next_target p (length locked)). 
    assert (Hrho : 0 < nr * sqrt (invB p)) by (apply Rmult_lt_0_compat; auto; apply Hpos; eapply nth_error_In; eauto).
    set (rho := nr * sqrt (invB p)) in *.
    assert (exists e, (if (u <? length prev)%nat then y <- nth_error prev u; Some (Rabs (y - x)) else Some rho) = Some e) as [e Ee].
    { destruct (Nat.ltb_spec u (length prev)); [|eauto]. destruct (nth_error prev u) eqn:Q; [cbn; eauto|].
      apply nth_error_None in Q; lia. }
    destruct (ltb (Rabs (x - t)) rho) eqn:C1; cbn [bind].
    - apply ltb_lt in C1. rewrite Ee; cbn [bind]. eexists; split; [exact Hk|]. split; [reflexivity|].
      cbn [fst]. intros x' Q; inversion Q; subst x'. cbv zeta. destruct (refined p); [left; auto|].
      split; [rewrite Rabs_minus_sym; lra|]. intros z _. replace (t - t) with 0 by ring. rewrite Rabs_R0. apply Rabs_pos.
    - apply ltb_ge in C1. destruct (refined p) eqn:Er; cbn [bind].
      + rewrite Ee; cbn [bind]. eexists; split; [exact Hk|]. split; [reflexivity|].
        cbn [fst]. intros x' Q; inversion Q; subst x'. right; auto.
      + unfold eqb. destruct (Req_EM_T (Rabs (t - x)) 0) as [Z|Z].
        { rewrite Rabs_minus_sym in Z. lra. }
        cbn [bind]. rewrite Ee; cbn [bind]. eexists; split; [exact Hk|]. split; [reflexivity|].
        cbn [fst]. intros x' Q; inversion Q; subst x'. cbv zeta.
        assert (Hy : (0 < t - x /\ x + rho * (t - x) / Rabs (t - x) = x + rho) \/
                     (t - x < 0 /\ x + rho * (t - x) / Rabs (t - x) = x - rho)).
        { destruct (Rlt_dec 0 (t - x)).
          - left; split; auto. rewrite Rabs_right by lra. field. lra.
          - right. assert (t - x <> 0) by (intros W; apply Z; rewrite W; apply Rabs_R0).
            split; [lra|]. rewrite Rabs_left by lra. field. lra. }
        destruct Hy as [[Hs ->]|[Hs ->]]; rewrite Rabs_minus_sym in C1.
        * rewrite Rabs_right in C1 by lra. split.
          { replace (x + rho - x) with rho by ring. rewrite Rabs_right; lra. }
          intros z Hz. rewrite (Rabs_left1 (x + rho - t)) by lra.
          unfold Rabs in *. destruct (Rcase_abs (z - x)), (Rcase_abs (z - t)); lra.
        * rewrite Rabs_left in C1 by lra. split.
          { replace (x - rho - x) with (- rho) by ring. rewrite Rabs_Ropp, Rabs_right; lra. }
          intros z Hz. rewrite (Rabs_right (x - rho - t)) by lra.
          unfold Rabs in *. destruct (Rcase_abs (z - x)), (Rcase_abs (z - t)); lra. }
  rewrite El; cbn [bind]. eexists; split; [reflexivity|]. cbn [given next_prev].
  split; [rewrite map_length; auto|]. split; [apply firstn_all2; rewrite map_length; lia|].
  intros k u x nr Hk Hx Hnr. destruct (K k u nr Hk Hnr) as (q & Eq & O).
  exists (fst q). split; [rewrite nth_error_map, Eq; reflexivity|]. apply O; auto.
Qed.

(** While newly locked vectors are preconditioned the shifts are the target shifts, one for
    each vector, when there are target shifts. *)
Theorem C45_locked : forall ts done conv, ts <> [] -> (done <= conv)%nat ->
  exists l, lock_shifts ts done conv = Some l /\ (conv - done <= length l)%nat /\
    forall i, (i < conv - done)%nat -> nth_error l i = nth_error ts (Nat.min (done + i) (length ts - 1)).
Proof.
  intros ts done conv Hne Hd. unfold lock_shifts.
  assert (Hpos : (0 < length ts)%nat) by (destruct ts; [easy|cbn; lia]).
  destruct (Nat.leb_spec conv (length ts)).
  - eexists; split; [reflexivity|]. split; [rewrite skipn_length; lia|].
    intros i Hi. rewrite Nat.min_l by lia.
    rewrite <- (firstn_skipn done ts) at 2. rewrite nth_error_app2 by (rewrite firstn_length; lia).
    rewrite firstn_length. f_equal. lia.
  - rewrite (proj2 (Nat.ltb_lt _ _) Hpos). eexists; split; [reflexivity|].
    split; [rewrite map_length, seq_length; lia|]. intros i Hi.
    rewrite nth_error_map. rewrite (nth_error_nth' (seq 0 (conv - done)) 0%nat) by (rewrite seq_length; lia).
    rewrite seq_nth by lia. cbn [option_map Nat.add]. rewrite (Nat.add_comm i). symmetry. apply nth_error_nth'. lia.
Qed.

(** Not always an array: vectors locked without target shifts, and the constraints, are
    preconditioned with a null pointer in place of the shifts. *)
Theorem C45_null_refuted : (forall conv, (0 < conv)%nat -> lock_shifts [] 0 conv = None) /\ init_shifts = None.
Proof. split; [|reflexivity]. intros conv Hc. unfold lock_shifts. cbn. destruct conv; [lia|reflexivity]. Qed.

(** With robust shifts, one Ritz value and nothing locked after the first iteration, the
    element before the first is read. *)
Theorem C45_single_refuted : forall p x nr prev,
  tgt p = smallest -> robust p = true -> (1 < outer p)%nat ->
  correction_shifts p [] [(x, UNCONVERGED)] prev [0%nat] [nr] = None.
Proof.
  intros p x nr prev Ht Hr Ho. unfold correction_shifts. rewrite Ht. cbn [is_extreme map fst].
  assert (E : forall il, block_shifts p 0 [x] prev [x] [0%nat] [il] [nr] = None).
  { intros il. cbn [block_shifts]. rewrite Ht, Hr. cbn [is_extreme]. unfold extreme_shift.
    destruct il as [|il]; [|destruct il; reflexivity]. cbn [get nth_error bind]. unfold robust_shift.
    rewrite (proj2 (Nat.leb_gt _ _) Ho). reflexivity. }
  assert (M : mergeSort Rops smallest [] [(x, UNCONVERGED)] (length [0%nat]) = Some ([Some x], [0%nat])) by reflexivity.
  rewrite M. destruct (locking p); cbn [andb bind fst snd written length]; rewrite E; reflexivity.
Qed.

(** At an interior target equal to the Ritz value, with a zero residual, the shift is 0/0. *)
Theorem C45_zero_refuted : forall p x prev,
  is_extreme (tgt p) = false -> refined p = false -> targetShifts p = [x] ->
  correction_shifts p [] [(x, UNCONVERGED)] prev [0%nat] [0] = None.
Proof.
  intros p x prev Ht Hr Hs. unfold correction_shifts. rewrite Ht, andb_false_r. cbn [bind map fst snd block_shifts].
  rewrite Ht. unfold interior_shift, user_shift. rewrite Hs. cbn [length Nat.sub Nat.min get nth_error bind].
  rewrite Rmult_0_l. replace (x - x) with 0 by ring. rewrite Rabs_R0.
  assert (L : ltb 0 0 = false) by (apply ltb_ge; lra). rewrite L, Hr. unfold eqb.
  destruct (Req_EM_T 0 0); [reflexivity|lra].
Qed.

(** ** Cases *)
Example C45_ex : exists p locked ritz norms,
  tgt p = smallest /\ locking p = true /\ robust p = true /\
  in_order Rops smallest locked /\ in_order Rops smallest (map fst ritz) /\
  (2 <= length (unconverged 0 ritz))%nat /\ length norms = 2%nat /\ (forall r, In r norms -> 0 <= r) /\
  exists r, correction_shifts p locked ritz [] (firstn 2 (unconverged 0 ritz)) norms = Some r /\
    exists y, nth_error (given r) 1 = Some y /\ y <= 5 /\ 3 <= y /\ 5 - y <= 1.
Proof.
  exists (SP smallest true true false [] 7 1 1000), [1; 2], [(3, UNCONVERGED); (4, CONVERGED); (5, UNCONVERGED)], [1; 1].
  assert (O1 : in_order Rops smallest [1; 2]) by (apply in_order_line; auto; repeat constructor; cbn; lra).
  assert (O2 : in_order Rops smallest (map fst [(3, UNCONVERGED); (4, CONVERGED); (5, UNCONVERGED)]))
    by (apply in_order_line; auto; repeat constructor; cbn; lra).
  assert (Pn : forall r, In r [1; 1] -> 0 <= r) by (cbn; intuition lra).
  repeat split; auto.
  destruct (C45_extreme (SP smallest true true false [] 7 1 1000) [1; 2] [(3, UNCONVERGED); (4, CONVERGED); (5, UNCONVERGED)]
     [] 2 [1; 1]) as (r & E & _ & _ & _ & K); auto; try (cbn; lra); try (cbn; intuition discriminate); try (cbn; lia).
  exists r. split; auto. destruct (K 1%nat 2%nat 5 1 eq_refl eq_refl eq_refl) as (y & Ey & A & B & C).
  exists y. split; auto. split; auto. split; [apply C; [cbn; auto|lra]|].
  cbn [invB] in B. rewrite sqrt_1 in B. rewrite Rmax_left in B by lra. lra.
Qed.

Example C45_interior_ex : exists p r y, is_extreme (tgt p) = false /\ refined p = false /\
  correction_shifts p [] [(10, UNCONVERGED)] [] [0%nat] [2] = Some r /\ nth_error (given r) 0 = Some y /\ closest 3 10 2 y.
Proof.
  exists (SP closest_abs true true false [3] 7 1 1000).
  destruct (C45_interior (SP closest_abs true true false [3] 7 1 1000) [] [(10, UNCONVERGED)] [] [0%nat] [2])
    as (r & E & _ & _ & K); auto; try (cbn; lra); try (cbn; intuition (subst; lia || lra)).
  destruct (K 0%nat 0%nat 10 2 eq_refl eq_refl eq_refl) as (y & Ey & C). exists r, y.
  repeat split; auto; cbn [refined] in C; unfold next_target in C; cbn [targetShifts length nth Nat.min Nat.sub invB] in C;
   rewrite sqrt_1, Rmult_1_r in C; apply C.
Qed.
