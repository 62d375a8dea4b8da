(** C44: recombining the basis gives the vectors, their images and the residuals that the
    coefficients say, whatever the number of rows handled at a time, in place or not. *)
From Coq Require Import List Arith Bool Lia ZArith.
From Verif Require Import Base UpdateModel.
Import ListNotations.

(** ** Specification *)
Section Spec.
Context {K : Type} (o : ops K).

(** Sums may be regrouped (exact arithmetic). *)
Definition regroup : Prop :=
  (forall x y z, add o x (add o y z) = add o (add o x y) z) /\
  (forall x, add o x (zero o) = x) /\ (forall x, add o (zero o) x = x).

(** Entry (r,j) of the product of the [n] columns at [p] in memory [s] with [c]. *)
Definition product (s : memory K) (p : place) (n : nat) (c : nat -> nat -> K) (r j : nat) : K :=
  sum o n (fun k => mul o (val s (fst p) r (snd p + k)) (c k j)).

(** The vectors, their images by A and by B (B the identity when there is no BV). *)
Definition newX (a : args K) (s : memory K) := product s (aV a) (nV a) (h a).
Definition newW (a : args K) (s : memory K) := product s (aW a) (nV a) (h a).
Definition newB (a : args K) (s : memory K) :=
  match aBV a with Some p => product s p (nV a) (h a) | None => newX a s end.
(** The residual A x - theta B x of column j. *)
Definition newR (a : args K) (s : memory K) (r j : nat) : K :=
  sub o (newW a s r j) (mul o (hVals a j) (newB a s r j)).

(** An output holds columns of a matrix. *)
Definition holds (s : memory K) (m : nat) (q : output) (f : nat -> nat -> K) : Prop :=
  forall r j, r < m -> o_b q <= j < o_e q -> val s (fst (o_at q)) r (snd (o_at q) + (j - o_b q)) = f r j.

(** The inner product of column p of f and column q of g, m rows. *)
Definition inner (m : nat) (f g : nat -> nat -> K) (p q : nat) : K :=
  sum o m (fun r => mul o (conj o (f r p)) (g r q)).

Definition covers (q : output) (x c : nat) : Prop :=
  x = fst (o_at q) /\ snd (o_at q) <= c < snd (o_at q) + (o_e q - o_b q).
Definition in_source (p : place) (n x c : nat) : Prop := x = fst p /\ snd p <= c < snd p + n.
Definition olist {T} (x : option T) : list T := match x with Some y => [y] | None => [] end.
Definition b_outs (a : args K) : list output := match aBV a with Some _ => bxs a | None => [] end.
Definition outputs (a : args K) : list output := xs a ++ olist (wo a) ++ b_outs a ++ olist (rr a).

(** Everything lies within its array and within the columns of h. *)
Definition place_fits (s : memory K) (m n : nat) (p : place) : Prop :=
  m <= rows s (fst p) /\ snd p + n <= cols s (fst p).
Definition fits (a : args K) (s : memory K) : Prop :=
  place_fits s (mV a) (nV a) (aV a) /\ place_fits s (mV a) (nV a) (aW a) /\
  (forall p, aBV a = Some p -> place_fits s (mV a) (nV a) p) /\
  (forall q, In q (outputs a) -> place_fits s (mV a) (o_e q - o_b q) (o_at q) /\ o_e q <= nh a) /\
  (forall b e, small_r a = Some (b, e) \/ small_x a = Some (b, e) -> e <= nh a) /\
  nG a <= nh a /\ nH a <= nh a.

(** No two outputs share a column; the outputs for X stay off W and BV, the one for W
    stays off BV.  The outputs for X may overlap V, the one for W may overlap V and W, those
    for BX and R may overlap anything read. *)
Definition off (q q' : output) : Prop := forall x c, covers q x c -> ~ covers q' x c.
Definition clear_of (q : output) (p : place) (n : nat) : Prop := forall x c, covers q x c -> ~ in_source p n x c.
Definition apart (a : args K) : Prop :=
  ForallOrdPairs off (outputs a) /\
  (forall q, In q (xs a) -> clear_of q (aW a) (nV a)) /\
  (forall q p, In q (xs a ++ olist (wo a)) -> aBV a = Some p -> clear_of q p (nV a)).

(** ** Proofs *)
Lemma sum_ext : forall n f g, (forall k, k < n -> f k = g k) -> sum o n f = sum o n g.
Proof. induction n; cbn; intros; auto. rewrite (IHn f g), H by auto; auto. Qed.

Lemma sum_split : regroup -> forall n m f, sum o (n + m) f = add o (sum o n f) (sum o m (fun k => f (n + k))).
Proof.
  intros (As & Z1 & Z2) n m f. induction m; cbn.
  - rewrite Nat.add_0_r, Z1. reflexivity.
  - rewrite Nat.add_succ_r. cbn. rewrite IHm, As. reflexivity.
Qed.

Lemma hull_in : forall l b e, (forall p, In p l -> fst p < snd p) -> In (b, e) l -> fst (hull l) <= b /\ e <= snd (hull l).
Proof.
  induction l as [|[b0 e0] t IH]; intros b e Hl Hin; [easy|].
  destruct t as [|p t'].
  - cbn in *. destruct Hin as [E|[]]; inversion E; subst; auto.
  - change (hull ((b0, e0) :: p :: t')) with (let (b', e') := hull (p :: t') in (Nat.min b0 b', Nat.max e0 e')).
    assert (IH' := fun b e => IH b e (fun q Hq => Hl q (or_intror Hq))).
    destruct (hull (p :: t')) as [b' e']. cbn [fst snd] in *.
    destruct Hin as [E|Hin].
    + inversion E; subst; lia.
    + specialize (IH' b e Hin); lia.
Qed.

Lemma hull_le : forall l N, (forall p, In p l -> snd p <= N) -> snd (hull l) <= N.
Proof.
  induction l as [|[b0 e0] t IH]; intros N Hl; [cbn; lia|].
  destruct t as [|p t']; [apply (Hl (b0, e0)); left; auto|].
  change (hull ((b0, e0) :: p :: t')) with (let (b', e') := hull (p :: t') in (Nat.min b0 b', Nat.max e0 e')).
  specialize (IH N (fun q Hq => Hl q (or_intror Hq))).
  pose proof (Hl (b0, e0) (or_introl eq_refl)).
  destruct (hull (p :: t')) as [b' e']. cbn [fst snd] in *. lia.
Qed.

Lemma range_in : forall b e p, In p (range b e) <-> (b < e /\ p = (b, e)).
Proof. unfold range; intros. destruct (Nat.ltb_spec b e); cbn; intuition (try lia; subst; auto). Qed.

(** A work array holds the columns of a matrix for rows from i. *)
Definition shows (x : work K) (i m : nat) (f : nat -> nat -> K) : Prop :=
  forall r j, r < m -> w_b x <= j < w_b x + w_n x -> w_at x r (j - w_b x) = f (i + r) j.

Lemma gemm_ok : forall s p i m n c N l (a0 : memory K),
  (forall q, In q l -> fst q < snd q) -> (forall q, In q l -> snd q <= N) ->
  place_fits s (i + m) n p ->
  (forall r k, i <= r < i + m -> k < n -> val s (fst p) r (snd p + k) = val a0 (fst p) r (snd p + k)) ->
  exists x, gemm o s p i m n c N (fst (hull l)) (snd (hull l)) = Some x /\
    shows x i m (product a0 p n c) /\
    (forall b e, In (b, e) l -> w_b x <= b /\ e <= w_b x + w_n x).
Proof.
  intros s p i m n c N l a0 Hne HN [F1 F2] Hv. unfold gemm.
  destruct (Nat.leb_spec (snd (hull l)) (fst (hull l))).
  - eexists; split; [reflexivity|]. split.
    + intros r j ? Hj. cbn in Hj. lia.
    + intros b e Hin. pose proof (hull_in l b e Hne Hin). pose proof (Hne _ Hin). cbn in *. lia.
  - pose proof (hull_le l N HN).
    rewrite (proj2 (Nat.leb_le _ _) F1), (proj2 (Nat.leb_le _ _) F2), (proj2 (Nat.leb_le _ _) H0). cbn [andb].
    eexists; split; [reflexivity|]. split.
    + intros r j Hr Hj. cbn [w_b w_n w_at] in *. unfold product. apply sum_ext. intros k Hk.
      rewrite Hv by lia. replace (fst (hull l) + (j - fst (hull l))) with j by lia. reflexivity.
    + intros b e Hin. pose proof (hull_in l b e Hne Hin). cbn [w_b w_n]. lia.
Qed.

Lemma part_ok : forall x i m f b e,
  shows x i m f -> (b < e -> w_b x <= b /\ e <= w_b x + w_n x) ->
  exists g, part o x b e = Some g /\ (forall r j, r < m -> b <= j < e -> g r (j - b) = f (i + r) j).
Proof.
  intros x i m f b e Hs Hb. unfold part.
  destruct (Nat.leb_spec e b).
  - eexists; split; [reflexivity|]. intros; lia.
  - destruct (Hb H) as [H1 H2].
    rewrite (proj2 (Nat.leb_le _ _) H1), (proj2 (Nat.leb_le _ _) H2). cbn [andb].
    eexists; split; [reflexivity|]. intros r j Hr Hj. cbn beta.
    replace (b - w_b x + (j - b)) with (j - w_b x) by lia. apply Hs; lia.
Qed.

Definition same_shape (s s' : memory K) := rows s' = rows s /\ cols s' = cols s.

Lemma store_ok : forall s q i m g f,
  place_fits s (i + m) (o_e q - o_b q) (o_at q) ->
  (forall r j, r < m -> o_b q <= j < o_e q -> g r (j - o_b q) = f (i + r) j) ->
  exists s', store s (o_at q) i m (o_e q - o_b q) g = Some s' /\ same_shape s s' /\
    (forall x r c, ~ (covers q x c /\ i <= r < i + m) -> val s' x r c = val s x r c) /\
    (forall r j, i <= r < i + m -> o_b q <= j < o_e q ->
       val s' (fst (o_at q)) r (snd (o_at q) + (j - o_b q)) = f r j).
Proof.
  intros s q i m g f [F1 F2] Hg. unfold store.
  destruct (Nat.eqb_spec (o_e q - o_b q) 0).
  - eexists; split; [reflexivity|]. repeat split; intros; lia || auto.
  - rewrite (proj2 (Nat.leb_le _ _) F1), (proj2 (Nat.leb_le _ _) F2). cbn [andb].
    eexists; split; [reflexivity|]. split; [split; reflexivity|]. cbn [val]. split.
    + intros x r c Hn. unfold covers in Hn.
      destruct (Nat.eqb_spec x (fst (o_at q))); cbn [andb]; auto.
      destruct (Nat.leb_spec i r); cbn [andb]; auto.
      destruct (Nat.ltb_spec r (i + m)); cbn [andb]; auto.
      destruct (Nat.leb_spec (snd (o_at q)) c); cbn [andb]; auto.
      destruct (Nat.ltb_spec c (snd (o_at q) + (o_e q - o_b q))); cbn [andb]; auto.
      exfalso; apply Hn; lia.
    + intros r j Hr Hj. rewrite Nat.eqb_refl.
      rewrite (proj2 (Nat.leb_le i r)), (proj2 (Nat.ltb_lt r (i + m))) by lia.
      rewrite (proj2 (Nat.leb_le (snd (o_at q)) _)), (proj2 (Nat.ltb_lt (snd (o_at q) + (j - o_b q)) _)) by lia.
      cbn [andb]. replace (snd (o_at q) + (j - o_b q) - snd (o_at q)) with (j - o_b q) by lia.
      rewrite Hg by lia. f_equal; lia.
Qed.

Definition any_covers (l : list output) (x c : nat) : Prop := exists q, In q l /\ covers q x c.

Lemma store_all_ok : forall l s w i m f,
  shows w i m f ->
  (forall q, In q l -> o_b q < o_e q -> w_b w <= o_b q /\ o_e q <= w_b w + w_n w) ->
  (forall q, In q l -> place_fits s (i + m) (o_e q - o_b q) (o_at q)) ->
  ForallOrdPairs off l ->
  exists s', store_all o s w i m l = Some s' /\ same_shape s s' /\
    (forall x r c, ~ (any_covers l x c /\ i <= r < i + m) -> val s' x r c = val s x r c) /\
    (forall q, In q l -> forall r j, i <= r < i + m -> o_b q <= j < o_e q ->
       val s' (fst (o_at q)) r (snd (o_at q) + (j - o_b q)) = f r j).
Proof.
  induction l as [|q t IH]; intros s w i m f Hs Hr Hf Ho.
  - exists s. cbn. repeat split; intros; easy || auto.
  - cbn [store_all].
    destruct (part_ok w i m f (o_b q) (o_e q) Hs (Hr q (or_introl eq_refl))) as (g & Eg & Hg).
    rewrite Eg; cbn [bind].
    destruct (store_ok s q i m g f (Hf q (or_introl eq_refl)) Hg) as (s1 & E1 & Sh1 & U1 & V1).
    rewrite E1; cbn [bind].
    inversion Ho as [|? ? Hq Ht]; subst.
    destruct (IH s1 w i m f Hs) as (s2 & E2 & Sh2 & U2 & V2); auto.
    { intros; apply Hr; [right|]; auto. }
    { intros q' Hq'. destruct (Hf q' (or_intror Hq')) as [A B]. destruct Sh1 as [S1 S2].
      split; [rewrite S1|rewrite S2]; auto. }
    exists s2. split; [exact E2|]. split; [|split].
    + destruct Sh1, Sh2; split; congruence.
    + intros x r c Hn. rewrite U2, U1; auto.
      * intros [Hc Hr']; apply Hn; split; auto; exists q; split; [left|]; auto.
      * intros [[q' [I C]] Hr']; apply Hn; split; auto; exists q'; split; [right|]; auto.
    + intros q' [->|Hin] r j Hrr Hj; [|apply V2; auto].
      rewrite U2; [apply V1; auto|]. intros [[q'' [I C]] _].
      rewrite Forall_forall in Hq. apply (Hq q'' I (fst (o_at q')) (snd (o_at q') + (j - o_b q'))); auto.
      unfold covers; split; auto; lia.
Qed.

Lemma fop_app : forall (l l' : list output), ForallOrdPairs off (l ++ l') ->
  ForallOrdPairs off l /\ ForallOrdPairs off l' /\ (forall q q', In q l -> In q' l' -> off q q').
Proof.
  induction l as [|x t IH]; cbn; intros l' Hf.
  - split; [constructor|]. split; [exact Hf|]. easy.
  - inversion Hf as [|? ? Hx Ht]; subst. destruct (IH l' Ht) as (A & B & C). rewrite Forall_forall in Hx.
    split; [constructor; auto; apply Forall_forall; intros; apply Hx, in_or_app; auto|].
    split; [exact B|]. intros q q' [->|I] I'; [apply Hx, in_or_app; auto|auto].
Qed.

Lemma x_ranges_ok : forall (a : args K) s, fits a s ->
  forall p, In p (x_ranges a) -> fst p < snd p /\ snd p <= nh a.
Proof.
  intros a s (_ & _ & _ & Hq & Hs & HG & HH) p Hin. unfold x_ranges, outputs in *.
  repeat rewrite in_app_iff in Hin.
  assert (RR : In p (opt_out (rr a)) -> fst p < snd p /\ snd p <= nh a).
  { destruct (rr a) as [q|] eqn:E; cbn; [|easy]. unfold out_range. rewrite range_in. intros [L ->].
    split; auto. apply Hq. rewrite !in_app_iff; cbn; auto. }
  assert (SR : In p (opt_range (small_r a)) -> fst p < snd p /\ snd p <= nh a).
  { destruct (small_r a) as [[b e]|] eqn:E; cbn; [|easy]. rewrite range_in. intros [L ->].
    split; auto. eapply Hs; eauto. }
  destruct Hin as [Hin|[Hin|[Hin|[Hin|[Hin|Hin]]]]].
  - apply in_flat_map in Hin. destruct Hin as (q & I & J). apply range_in in J. destruct J as [L ->].
    split; auto. apply Hq. rewrite in_app_iff; auto.
  - destruct (aBV a); [easy|auto].
  - apply range_in in Hin. destruct Hin as [L ->]; auto.
  - apply range_in in Hin. destruct Hin as [L ->]; auto.
  - destruct (aBV a); [easy|auto].
  - destruct (small_x a) as [[b e]|] eqn:E; cbn in Hin; [|easy]. apply range_in in Hin. destruct Hin as [L ->].
    split; auto. eapply Hs; eauto.
Qed.

Lemma y_ranges_ok : forall (a : args K) s, fits a s ->
  forall p, In p (y_ranges a) -> fst p < snd p /\ snd p <= nh a.
Proof.
  intros a s (_ & _ & _ & Hq & Hs & HG & HH) p Hin. unfold y_ranges, outputs in *.
  repeat rewrite in_app_iff in Hin. destruct Hin as [Hin|[Hin|[Hin|Hin]]].
  - destruct (wo a) as [q|] eqn:E; cbn in Hin; [|easy]. apply range_in in Hin. destruct Hin as [L ->].
    split; auto. apply Hq. rewrite !in_app_iff; cbn; auto.
  - destruct (rr a) as [q|] eqn:E; cbn in Hin; [|easy]. apply range_in in Hin. destruct Hin as [L ->].
    split; auto. apply Hq. rewrite !in_app_iff; cbn; auto.
  - destruct (small_r a) as [[b e]|] eqn:E; cbn in Hin; [|easy]. apply range_in in Hin. destruct Hin as [L ->].
    split; auto. eapply Hs; eauto.
  - apply range_in in Hin. destruct Hin as [L ->]; auto.
Qed.

Lemma bx_ranges_ok : forall (a : args K) s, fits a s ->
  forall p, In p (bx_ranges a) -> fst p < snd p /\ snd p <= nh a.
Proof.
  intros a s (_ & _ & _ & Hq & Hs & HG & HH) p Hin. unfold bx_ranges, outputs, b_outs in *.
  destruct (aBV a) as [pb|]; [|easy]. repeat rewrite in_app_iff in Hin. destruct Hin as [Hin|[Hin|[Hin|Hin]]].
  - apply in_flat_map in Hin. destruct Hin as (q & I & J). apply range_in in J. destruct J as [L ->].
    split; auto. apply Hq. rewrite !in_app_iff; auto.
  - destruct (rr a) as [q|] eqn:E; cbn in Hin; [|easy]. apply range_in in Hin. destruct Hin as [L ->].
    split; auto. apply Hq. rewrite !in_app_iff; cbn; auto.
  - apply range_in in Hin. destruct Hin as [L ->]; auto.
  - destruct (small_r a) as [[b e]|] eqn:E; cbn in Hin; [|easy]. apply range_in in Hin. destruct Hin as [L ->].
    split; auto. eapply Hs; eauto.
Qed.

Lemma inner_split : regroup -> forall i m f g p q (x y : nat -> nat -> K) c d,
  (forall r, r < m -> x r c = f (i + r) p) -> (forall r, r < m -> y r d = g (i + r) q) ->
  add o (inner i f g p q) (cdot o m (fun r => x r c) (fun r => y r d)) = inner (i + m) f g p q.
Proof.
  intros Rg i m f g p q x y c d Hx Hy. unfold inner, cdot. rewrite sum_split by auto. f_equal.
  apply sum_ext. intros r Hr. rewrite Hx, Hy by auto. reflexivity.
Qed.

(** What the sums are after the first i rows. *)
Definition sums_at (a : args K) (s0 : memory K) (i : nat) (c : sums K) : Prop :=
  (forall q, rr a = Some q -> forall j, o_b q <= j < o_e q ->
     sR c (j - o_b q) = inner i (newR a s0) (newR a s0) j j) /\
  (forall b e, small_r a = Some (b, e) -> forall j, b <= j < e ->
     sr c (j - b) = inner i (newR a s0) (newR a s0) j j) /\
  (forall b e, small_x a = Some (b, e) -> forall j, b <= j < e ->
     sx c (j - b) = inner i (newX a s0) (newX a s0) j j) /\
  (forall p q, p < nG a -> q < nG a -> sG c p q = inner i (newX a s0) (newB a s0) p q) /\
  (forall p q, p < nH a -> q < nH a -> sH c p q = inner i (newX a s0) (newW a s0) p q).

(** What memory is after the first i rows. *)
Definition memory_at (a : args K) (s0 : memory K) (i : nat) (s : memory K) : Prop :=
  same_shape s0 s /\
  (forall x r c, ~ (any_covers (outputs a) x c /\ r < i) -> val s x r c = val s0 x r c) /\
  (forall q, In q (xs a) -> holds s i q (newX a s0)) /\
  (forall q, wo a = Some q -> holds s i q (newW a s0)) /\
  (forall q, In q (b_outs a) -> holds s i q (newB a s0)) /\
  (forall q, rr a = Some q -> holds s i q (newR a s0)).

(** The writes of one chunk in the groups X, W, B, R: each group off the others, so each
    survives the later ones. *)
Lemma step_ok : regroup -> forall (a : args K) s0 i m s c,
  fits a s0 -> apart a -> i + m <= mV a ->
  memory_at a s0 i s -> sums_at a s0 i c ->
  exists s' c', chunk o a i m s c = Some (s', c') /\ memory_at a s0 (i + m) s' /\ sums_at a s0 (i + m) c'.
Proof.
  intros Rg a s0 i m s c Hf (Ho & HW & HB) Him (Sh & Un & MX & MW & MB & MR) (CR & Cr & Cx & CG & CH).
  pose proof (x_ranges_ok a s0 Hf) as XR. pose proof (y_ranges_ok a s0 Hf) as YR.
  pose proof (bx_ranges_ok a s0 Hf) as BR.
  destruct Hf as (FV & FW & FB & FO & _ & _ & _).
  unfold outputs in Ho. apply fop_app in Ho. destruct Ho as (OX & Ho & X_).
  apply fop_app in Ho. destruct Ho as (OW & Ho & W_).
  apply fop_app in Ho. destruct Ho as (OB & OR & B_).
  assert (Fit : forall t p n, same_shape s0 t -> place_fits s0 (mV a) n p -> place_fits t (i + m) n p).
  { intros t p n [S1 S2] [A B]. split; [rewrite S1; lia|rewrite S2; auto]. }
  unfold chunk.
  (* X *)
  destruct (gemm_ok s (aV a) i m (nV a) (h a) (nh a) (x_ranges a) s0) as (x & Ex & Hx & Px);
    [intros; apply XR; auto|intros; apply XR; auto|apply Fit; auto| |].
  { intros r k Hr Hk. apply Un. intros [_ L]; lia. }
  destruct (hull (x_ranges a)) as [xb xe]. destruct (hull (y_ranges a)) as [yb ye] eqn:EY.
  destruct (hull (bx_ranges a)) as [bb be] eqn:EB. cbn [fst snd] in Ex.
  rewrite Ex; cbn [bind]. fold (newX a s0) in Hx.
  destruct (store_all_ok (xs a) s x i m (newX a s0)) as (s1 & E1 & Sh1 & U1 & V1); auto.
  { intros q Hq L. apply Px. unfold x_ranges. apply in_or_app; left. apply in_flat_map. exists q; split; auto.
    apply range_in; auto. }
  { intros q Hq. apply Fit; auto. apply FO. unfold outputs. apply in_or_app; auto. }
  rewrite E1; cbn [bind].
  assert (Sh01 : same_shape s0 s1) by (destruct Sh, Sh1; split; congruence).
  (* W *)
  destruct (gemm_ok s1 (aW a) i m (nV a) (h a) (nh a) (y_ranges a) s0) as (y & Ey & Hy & Py);
    [intros; apply YR; auto|intros; apply YR; auto|apply Fit; auto| |].
  { intros r k Hr Hk. rewrite U1, Un; auto; [intros [_ L]; lia|].
    intros [[q [I C]] _]. apply (HW q I _ _ C). split; auto; lia. }
  rewrite EY in Ey. cbn [fst snd] in Ey. rewrite Ey; cbn [bind]. fold (newW a s0) in Hy.
  destruct (store_all_ok (olist (wo a)) s1 y i m (newW a s0)) as (s2 & E2 & Sh2 & U2 & V2); auto.
  { intros q Hq L. apply Py. unfold y_ranges. destruct (wo a); cbn in Hq; [|easy]. destruct Hq as [->|[]].
    apply in_or_app; left. apply range_in; auto. }
  { intros q Hq. apply Fit; auto. apply FO. unfold outputs. rewrite !in_app_iff; auto. }
  unfold olist in E2 at 1. rewrite E2; cbn [bind].
  assert (Sh02 : same_shape s0 s2) by (destruct Sh01, Sh2; split; congruence).
  (* B *)
  assert (exists bx, match aBV a with Some p => gemm o s2 p i m (nV a) (h a) (nh a) bb be | None => Some x end = Some bx
     /\ shows bx i m (newB a s0)
     /\ (forall b e, In (b, e) (flat_map out_range (b_outs a) ++ opt_out (rr a) ++ range 0 (nG a) ++ opt_range (small_r a))
          -> w_b bx <= b /\ e <= w_b bx + w_n bx)) as (bx & Eb & Hb & Pb).
  { unfold newB, b_outs. destruct (aBV a) as [p|] eqn:EP.
    - destruct (gemm_ok s2 p i m (nV a) (h a) (nh a) (bx_ranges a) s0) as (z & Ez & Hz & Pz);
        [intros; apply BR; auto|intros; apply BR; auto|apply Fit; auto| |].
      { intros r k Hr Hk. rewrite U2, U1, Un; auto; [intros [_ L]; lia| |].
        - intros [[q [I C]] _]. apply (HB q p (in_or_app _ _ _ (or_introl I)) eq_refl _ _ C). split; auto; lia.
        - intros [[q [I C]] _]. apply (HB q p (in_or_app _ _ _ (or_intror I)) eq_refl _ _ C). split; auto; lia. }
      rewrite EB in Ez. cbn [fst snd] in Ez. exists z. split; [exact Ez|]. split; [exact Hz|].
      intros b e Hin. apply Pz. unfold bx_ranges. rewrite EP. exact Hin.
    - exists x. split; auto. split; [exact Hx|]. intros b e Hin. apply Px. unfold x_ranges. rewrite EP.
      cbn [flat_map app] in Hin. rewrite !in_app_iff in *. intuition. }
  rewrite Eb; cbn [bind].
  assert (exists s3, match aBV a with Some _ => store_all o s2 bx i m (bxs a) | None => Some s2 end = Some s3 /\
    same_shape s2 s3 /\
    (forall x r c, ~ (any_covers (b_outs a) x c /\ i <= r < i + m) -> val s3 x r c = val s2 x r c) /\
    (forall q, In q (b_outs a) -> forall r j, i <= r < i + m -> o_b q <= j < o_e q ->
       val s3 (fst (o_at q)) r (snd (o_at q) + (j - o_b q)) = newB a s0 r j)) as (s3 & E3 & Sh3 & U3 & V3).
  { destruct (store_all_ok (b_outs a) s2 bx i m (newB a s0)) as (s3 & E3 & Q); auto.
    { intros q Hq L. apply Pb. apply in_or_app; left. apply in_flat_map. exists q; split; auto. apply range_in; auto. }
    { intros q Hq. apply Fit; auto. apply FO. unfold outputs. rewrite !in_app_iff; auto. }
    exists s3. split; [|exact Q]. unfold b_outs in E3. destruct (aBV a); auto. }
  rewrite E3; cbn [bind].
  assert (Sh03 : same_shape s0 s3) by (destruct Sh02, Sh3; split; congruence).
  (* the parts *)
  destruct (part_ok x i m (newX a s0) 0 (nG a) Hx) as (gx & Egx & Hgx).
  { intros L; apply Px. unfold x_ranges. rewrite !in_app_iff. do 2 right; left. apply range_in; auto. }
  destruct (part_ok bx i m (newB a s0) 0 (nG a) Hb) as (gb & Egb & Hgb).
  { intros L; apply Pb. rewrite !in_app_iff. do 2 right; left. apply range_in; auto. }
  destruct (part_ok x i m (newX a s0) 0 (nH a) Hx) as (hx & Ehx & Hhx).
  { intros L; apply Px. unfold x_ranges. rewrite !in_app_iff. do 3 right; left. apply range_in; auto. }
  destruct (part_ok y i m (newW a s0) 0 (nH a) Hy) as (hy & Ehy & Hhy).
  { intros L; apply Py. unfold y_ranges. rewrite !in_app_iff. do 3 right. apply range_in; auto. }
  rewrite Egx, Egb, Ehx, Ehy; cbn [bind].
  (* norms of X *)
  match goal with |- exists _ _, bind ?ee _ = _ /\ _ =>
    assert (exists x3, ee = Some x3 /\ (forall b e, small_x a = Some (b, e) -> forall j, b <= j < e ->
       x3 (j - b) = inner (i + m) (newX a s0) (newX a s0) j j)) as (x3 & Ex3 & Hx3) end.
  { destruct (small_x a) as [[b e]|] eqn:Es.
    - destruct (part_ok x i m (newX a s0) b e Hx) as (f & Ef & Hf').
      { intros L; apply Px. unfold x_ranges. rewrite !in_app_iff. do 5 right. rewrite Es. apply range_in; auto. }
      rewrite Ef; cbn [bind]. eexists; split; [reflexivity|]. intros b' e' Q j Hj. inversion Q; subst b' e'.
      rewrite (Cx b e eq_refl j Hj). apply inner_split; auto; intros; apply Hf'; auto.
    - eexists; split; [reflexivity|]. easy. }
  rewrite Ex3; cbn [bind].
  (* R *)
  match goal with |- exists _ _, bind ?ee _ = _ /\ _ =>
    assert (exists s4 nr3, ee = Some (s4, nr3) /\ same_shape s3 s4 /\
      (forall x r c, ~ (any_covers (olist (rr a)) x c /\ i <= r < i + m) -> val s4 x r c = val s3 x r c) /\
      (forall q, rr a = Some q -> forall r j, i <= r < i + m -> o_b q <= j < o_e q ->
         val s4 (fst (o_at q)) r (snd (o_at q) + (j - o_b q)) = newR a s0 r j) /\
      (forall q, rr a = Some q -> forall j, o_b q <= j < o_e q ->
         nr3 (j - o_b q) = inner (i + m) (newR a s0) (newR a s0) j j)) as (s4 & nr3 & E4 & Sh4 & U4 & V4 & N4) end.
  { destruct (rr a) as [q|] eqn:Er.
    - destruct (part_ok bx i m (newB a s0) (o_b q) (o_e q) Hb) as (bf & Ebf & Hbf).
      { intros L; apply Pb. rewrite !in_app_iff. right; left. apply range_in; auto. }
      destruct (part_ok y i m (newW a s0) (o_b q) (o_e q) Hy) as (yf & Eyf & Hyf).
      { intros L; apply Py. unfold y_ranges. rewrite !in_app_iff. right; left. rewrite Er. apply range_in; auto. }
      rewrite Ebf, Eyf; cbn [bind].
      set (f := residuals o (fun j => hVals a (o_b q + j)) bf yf).
      assert (Hfr : forall r j, r < m -> o_b q <= j < o_e q -> f r (j - o_b q) = newR a s0 (i + r) j).
      { intros r j Hr Hj. unfold f, residuals, newR. rewrite Hbf, Hyf by auto.
        replace (o_b q + (j - o_b q)) with j by lia. reflexivity. }
      destruct (store_ok s3 q i m f (newR a s0)) as (s4 & E4 & Sh4 & U4 & V4); auto.
      { apply Fit; auto. apply FO. unfold outputs. rewrite !in_app_iff, Er; cbn; auto. }
      rewrite E4; cbn [bind]. eexists _, _; split; [reflexivity|]. split; [auto|]. split; [|split].
      + intros x' r c' Hn. apply U4. intros [C L]. apply Hn. split; auto. exists q; split; [left|]; auto.
      + intros q' Q. inversion Q; subst q'. apply V4.
      + intros q' Q j Hj. inversion Q; subst q'. rewrite (CR q eq_refl j Hj).
        apply inner_split; auto; intros; apply Hfr; auto.
    - eexists _, _; split; [reflexivity|]. split; [split; auto|]. split; [auto|]. split; easy. }
  rewrite E4; cbn [bind].
  match goal with |- exists _ _, bind ?ee _ = _ /\ _ =>
    assert (exists r3, ee = Some r3 /\ (forall b e, small_r a = Some (b, e) -> forall j, b <= j < e ->
       r3 (j - b) = inner (i + m) (newR a s0) (newR a s0) j j)) as (r3 & Er3 & Hr3) end.
  { destruct (small_r a) as [[b e]|] eqn:Es.
    - destruct (part_ok bx i m (newB a s0) b e Hb) as (bf & Ebf & Hbf).
      { intros L; apply Pb. rewrite !in_app_iff. do 3 right. apply range_in; auto. }
      destruct (part_ok y i m (newW a s0) b e Hy) as (yf & Eyf & Hyf).
      { intros L; apply Py. unfold y_ranges. rewrite !in_app_iff. do 2 right; left. rewrite Es. apply range_in; auto. }
      rewrite Ebf, Eyf; cbn [bind]. eexists; split; [reflexivity|]. intros b' e' Q j Hj. inversion Q; subst b' e'.
      rewrite (Cr b e eq_refl j Hj).
      assert (Hfr : forall r, r < m -> residuals o (fun j => hVals a (b + j)) bf yf r (j - b) = newR a s0 (i + r) j).
      { intros r Hr. unfold residuals, newR. rewrite Hbf, Hyf by auto.
        replace (b + (j - b)) with j by lia. reflexivity. }
      apply inner_split; auto.
    - eexists; split; [reflexivity|]. easy. }
  rewrite Er3; cbn [bind fst snd]. eexists _, _; split; [reflexivity|]. split.
  - (* memory *)
    assert (Keep : forall q f, holds s i q f -> In q (outputs a) -> forall t,
       (forall r, r < i -> forall x c, val t x r c = val s x r c) ->
       forall r j, r < i -> o_b q <= j < o_e q -> val t (fst (o_at q)) r (snd (o_at q) + (j - o_b q)) = f r j).
    { intros q f Hh _ t Ht r j Hr Hj. rewrite Ht by auto. apply Hh; auto. }
    assert (Old : forall r, r < i -> forall x c, val s4 x r c = val s x r c).
    { intros r Hr x' c'. rewrite U4, U3, U2, U1; auto; intros [_ L]; lia. }
    assert (NC : forall q q' r j, off q q' -> o_b q <= j < o_e q -> i <= r < i + m ->
       ~ covers q' (fst (o_at q)) (snd (o_at q) + (j - o_b q))).
    { intros q q' r j Hof Hj Hr. apply Hof. split; auto; lia. }
    split; [destruct Sh03, Sh4; split; congruence|]. split; [|split; [|split; [|split]]].
    + intros x' r c' Hn. unfold outputs in Hn.
      rewrite U4, U3, U2, U1, Un; auto.
      * intros [C L]; apply Hn; split; auto; lia.
      * intros [(q & I & C) L]; apply Hn; split; [exists q; rewrite !in_app_iff; auto|lia].
      * intros [(q & I & C) L]; apply Hn; split; [exists q; rewrite !in_app_iff; auto|lia].
      * intros [(q & I & C) L]; apply Hn; split; [exists q; rewrite !in_app_iff; auto|lia].
      * intros [(q & I & C) L]; apply Hn; split; [exists q; rewrite !in_app_iff; auto|lia].
    + intros q Hq r j Hr Hj. destruct (Nat.lt_ge_cases r i) as [L|L].
      { apply (Keep q); auto. unfold outputs; apply in_or_app; auto. }
      rewrite U4, U3, U2; [apply V1; auto; lia| | |]; intros [(q' & I & C) _]; revert C;
        apply (NC q q' r j); auto; try lia; apply X_; auto; rewrite !in_app_iff; auto.
    + intros q Hq r j Hr Hj. assert (In q (olist (wo a))) by (rewrite Hq; left; auto).
      destruct (Nat.lt_ge_cases r i) as [L|L].
      { apply (Keep q); auto. unfold outputs; rewrite !in_app_iff; auto. }
      rewrite U4, U3; [apply V2; auto; lia| |]; intros [(q' & I & C) _]; revert C;
        apply (NC q q' r j); auto; try lia; apply W_; auto; rewrite !in_app_iff; auto.
    + intros q Hq r j Hr Hj. destruct (Nat.lt_ge_cases r i) as [L|L].
      { apply (Keep q); auto. unfold outputs; rewrite !in_app_iff; auto. }
      rewrite U4; [apply V3; auto; lia|]; intros [(q' & I & C) _]; revert C;
        apply (NC q q' r j); auto; try lia.
    + intros q Hq r j Hr Hj. destruct (Nat.lt_ge_cases r i) as [L|L].
      { apply (Keep q); auto. unfold outputs; rewrite !in_app_iff, Hq; cbn; auto. }
      apply V4; auto; lia.
  - (* sums *)
    split; [exact N4|]. split; [exact Hr3|]. split; [exact Hx3|]. cbn [sG sH]. split.
    + intros p q Hp Hq. rewrite CG by auto. apply inner_split; auto; intros r Hr.
      * rewrite <- (Hgx r p) by lia. f_equal; lia.
      * rewrite <- (Hgb r q) by lia. f_equal; lia.
    + intros p q Hp Hq. rewrite CH by auto. apply inner_split; auto; intros r Hr.
      * rewrite <- (Hhx r p) by lia. f_equal; lia.
      * rewrite <- (Hhy r q) by lia. f_equal; lia.
Qed.

Lemma loop_ok : regroup -> forall (a : args K) s0, fits a s0 -> apart a ->
  forall fuel i m s c, memory_at a s0 i s -> sums_at a s0 i c ->
    i <= mV a -> (i < mV a -> 0 < m) -> i + m <= mV a -> mV a - i < fuel ->
    exists s' c', loop o fuel a i m s c = Some (s', c') /\ memory_at a s0 (mV a) s' /\ sums_at a s0 (mV a) c'.
Proof.
  intros Rg a s0 Hf Ha. induction fuel; intros i m s c Hm Hc Hi Hpos Him Hfu; [lia|].
  cbn [loop]. destruct (Nat.ltb_spec i (mV a)).
  - destruct (step_ok Rg a s0 i m s c) as (s1 & c1 & E & M1 & C1); auto.
    rewrite E; cbn [bind fst snd]. specialize (Hpos H). apply IHfuel; auto; lia.
  - replace i with (mV a) in * by lia. eauto.
Qed.

(** C44, one process: every output holds what the coefficients say, nothing else changes,
    and the sums are the squares of the norms and the inner products of these columns, for
    every number of rows handled at a time. *)
Theorem C44_update : regroup -> forall block (a : args K) s, 0 < block -> fits a s -> apart a ->
  exists s' c, update_local o block a s = Some (s', c) /\
    (forall q, In q (xs a) -> holds s' (mV a) q (newX a s)) /\
    (forall q, wo a = Some q -> holds s' (mV a) q (newW a s)) /\
    (forall q, In q (b_outs a) -> holds s' (mV a) q (newB a s)) /\
    (forall q, rr a = Some q -> holds s' (mV a) q (newR a s)) /\
    (forall x r k, (forall q, In q (outputs a) -> ~ covers q x k) \/ mV a <= r -> val s' x r k = val s x r k) /\
    (forall q, rr a = Some q -> forall j, o_b q <= j < o_e q ->
       sR c (j - o_b q) = inner (mV a) (newR a s) (newR a s) j j) /\
    (forall b e, small_r a = Some (b, e) -> forall j, b <= j < e ->
       sr c (j - b) = inner (mV a) (newR a s) (newR a s) j j) /\
    (forall b e, small_x a = Some (b, e) -> forall j, b <= j < e ->
       sx c (j - b) = inner (mV a) (newX a s) (newX a s) j j) /\
    (forall p q, p < nG a -> q < nG a -> sG c p q = inner (mV a) (newX a s) (newB a s) p q) /\
    (forall p q, p < nH a -> q < nH a -> sH c p q = inner (mV a) (newX a s) (newW a s) p q).
Proof.
  intros Rg block a s Hb Hf Ha. unfold update_local.
  destruct (loop_ok Rg a s Hf Ha (S (mV a)) 0 (Nat.min block (mV a)) s (no_sums o))
    as (s' & c & E & (Sh & Un & MX & MW & MB & MR) & (CR & Cr & Cx & CG & CH)); try lia.
  - split; [split; auto|]. split; [auto|]. unfold holds. repeat split; intros; lia.
  - unfold sums_at, inner. cbn. repeat split; intros; auto.
  - exists s', c. split; [exact E|]. repeat (split; [assumption|]). split; [|repeat (split; [assumption|]); assumption].
    intros x r k Hn. apply Un. intros [(q & I & C) L]. destruct Hn as [Hn|]; [apply (Hn q I C)|lia].
Qed.

(** The image of the new vectors is what is stored as such: if the columns at aW are the
    images of those at aV by a matrix applied by columns, so are the new ones. *)
Definition distributes : Prop :=
  (forall x y z, mul o x (add o y z) = add o (mul o x y) (mul o x z)) /\
  (forall x y z, mul o (add o x y) z = add o (mul o x z) (mul o y z)) /\
  (forall x y z, mul o x (mul o y z) = mul o (mul o x y) z) /\
  (forall x y, add o x y = add o y x) /\
  (forall x, mul o (zero o) x = zero o) /\ (forall x, mul o x (zero o) = zero o).

Lemma sum_zero : regroup -> forall n, sum o n (fun _ => zero o) = zero o.
Proof. intros (_ & Z & _). induction n; cbn; auto. rewrite IHn, Z; auto. Qed.

Lemma sum_add : regroup -> distributes -> forall n f g, sum o n (fun k => add o (f k) (g k)) = add o (sum o n f) (sum o n g).
Proof.
  intros (As & Z1 & Z2) (_ & _ & _ & Co & _). induction n; intros; cbn; [rewrite Z1; auto|].
  rewrite IHn. rewrite <- !As. f_equal. rewrite !As. rewrite (Co (sum o n g)). reflexivity.
Qed.

Lemma sum_mul_r : regroup -> distributes -> forall n f z, mul o (sum o n f) z = sum o n (fun k => mul o (f k) z).
Proof. intros Rg (D1 & D2 & A & Co & Z1 & Z2). induction n; intros; cbn; auto. rewrite D2, IHn; auto. Qed.

Lemma sum_mul_l : regroup -> distributes -> forall n f z, mul o z (sum o n f) = sum o n (fun k => mul o z (f k)).
Proof. intros Rg (D1 & D2 & A & Co & Z1 & Z2). induction n; intros; cbn; auto. rewrite D1, IHn; auto. Qed.

Lemma sum_swap : regroup -> distributes -> forall n m f,
  sum o n (fun i => sum o m (fun j => f i j)) = sum o m (fun j => sum o n (fun i => f i j)).
Proof.
  intros Rg D. induction n; intros m f; cbn; [rewrite sum_zero; auto|].
  rewrite IHn, sum_add by auto. reflexivity.
Qed.

Theorem C44_image : regroup -> distributes -> forall block (a : args K) s (A : nat -> nat -> K) s' c qx qw,
  0 < block -> fits a s -> apart a -> update_local o block a s = Some (s', c) ->
  (forall r k, r < mV a -> k < nV a ->
     val s (fst (aW a)) r (snd (aW a) + k) = sum o (mV a) (fun t => mul o (A r t) (val s (fst (aV a)) t (snd (aV a) + k)))) ->
  In qx (xs a) -> wo a = Some qw ->
  forall r j, r < mV a -> o_b qx <= j < o_e qx -> o_b qw <= j < o_e qw ->
    val s' (fst (o_at qw)) r (snd (o_at qw) + (j - o_b qw)) =
    sum o (mV a) (fun t => mul o (A r t) (val s' (fst (o_at qx)) t (snd (o_at qx) + (j - o_b qx)))).
Proof.
  intros Rg D block a s A s' c qx qw Hb Hf Ha E HA Ix Iw r j Hr Hx Hw.
  destruct (C44_update Rg block a s Hb Hf Ha) as (s2 & c2 & E2 & MX & MW & _).
  rewrite E in E2; inversion E2; subst s2 c2.
  rewrite (MW qw Iw r j Hr Hw).
  erewrite sum_ext; [|intros t Ht; rewrite (MX qx Ix t j Ht Hx); reflexivity].
  unfold newW, newX, product.
  transitivity (sum o (nV a) (fun k => sum o (mV a) (fun t =>
     mul o (mul o (A r t) (val s (fst (aV a)) t (snd (aV a) + k))) (h a k j)))).
  - apply sum_ext. intros k Hk. rewrite HA by auto. apply sum_mul_r; auto.
  - rewrite sum_swap by auto. apply sum_ext. intros t Ht. rewrite sum_mul_l by auto.
    apply sum_ext. intros k Hk. destruct D as (_ & _ & As & _). rewrite As. reflexivity.
Qed.

(** All processes: the norms every process gets are those of the whole columns. *)
Definition total (l : list K) : K := fold_right (add o) (zero o) l.
Definition same_request (a b : args K) : Prop :=
  match rr a, rr b with
  | Some q, Some q' => o_b q = o_b q' /\ o_e q = o_e q'
  | None, None => True
  | _, _ => False
  end /\ small_r a = small_r b /\ small_x a = small_x b.

Lemma combine_map : forall (l : list nat) f g,
  map (fun p => add o (fst p) (snd p)) (combine (map f l) (map g l)) = map (fun k => add o (f k) (g k)) l.
Proof. induction l; cbn; intros; f_equal; auto. Qed.

Lemma map_tail : forall {T U} (g1 g2 : T -> U) (l l' : list T), l = l' -> (forall k, In k l -> g1 k = g2 k) -> map g1 l = map g2 l'.
Proof. intros; subst; apply map_ext_in; auto. Qed.

Definition packed (n1 n2 n3 : nat) (f1 f2 f3 : nat -> K) : list K :=
  map f1 (seq 0 n1) ++ map f2 (seq 0 n2) ++ map f3 (seq 0 n3).

Lemma combine_app_eq : forall (l1 l2 k1 k2 : list K), length l1 = length k1 ->
  combine (l1 ++ l2) (k1 ++ k2) = combine l1 k1 ++ combine l2 k2.
Proof. induction l1; destruct k1; cbn; intros; try easy. f_equal; auto. Qed.

Lemma packed_add : forall n1 n2 n3 f1 f2 f3 g1 g2 g3,
  map (fun p => add o (fst p) (snd p)) (combine (packed n1 n2 n3 f1 f2 f3) (packed n1 n2 n3 g1 g2 g3)) =
  packed n1 n2 n3 (fun k => add o (f1 k) (g1 k)) (fun k => add o (f2 k) (g2 k)) (fun k => add o (f3 k) (g3 k)).
Proof.
  intros. unfold packed. rewrite !combine_app_eq by (rewrite !map_length; auto).
  rewrite !map_app, !combine_map. reflexivity.
Qed.

Lemma fold_packed : regroup -> forall n1 n2 n3 (cs : list (sums K)) f1 f2 f3,
  fold_left (fun u v => map (fun p => add o (fst p) (snd p)) (combine u v))
    (map (fun c => packed n1 n2 n3 (sR c) (sr c) (sx c)) cs) (packed n1 n2 n3 f1 f2 f3) =
  packed n1 n2 n3 (fun k => add o (f1 k) (total (map (fun c => sR c k) cs)))
                  (fun k => add o (f2 k) (total (map (fun c => sr c k) cs)))
                  (fun k => add o (f3 k) (total (map (fun c => sx c k) cs))).
Proof.
  intros (As & Z1 & Z2) n1 n2 n3. induction cs as [|c t IH]; intros; cbn [map fold_left].
  - unfold packed. cbn. f_equal; [|f_equal]; apply map_ext; intros; rewrite Z1; auto.
  - rewrite packed_add, IH. unfold packed, total. cbn [fold_right].
    f_equal; [|f_equal]; apply map_ext; intros; rewrite As; auto.
Qed.

Lemma unpack_packed : forall (a : args K) f1 f2 f3,
  unpack o a (packed (r_width a) (width (small_r a)) (width (small_x a)) f1 f2 f3) =
  Norms (map (fun k => root o (f1 k)) (seq 0 (r_width a)))
        (map (fun k => root o (f2 k)) (seq 0 (width (small_r a))))
        (map (fun k => root o (f3 k)) (seq 0 (width (small_x a)))).
Proof.
  intros. unfold unpack, packed. rewrite !map_app, !map_map.
  set (n1 := r_width a). set (n2 := width (small_r a)). set (n3 := width (small_x a)).
  set (l1 := map (fun k => root o (f1 k)) (seq 0 n1)). set (l2 := map (fun k => root o (f2 k)) (seq 0 n2)).
  set (l3 := map (fun k => root o (f3 k)) (seq 0 n3)).
  assert (L1 : length l1 = n1) by (unfold l1; rewrite map_length, seq_length; auto).
  assert (L2 : length l2 = n2) by (unfold l2; rewrite map_length, seq_length; auto).
  assert (L3 : length l3 = n3) by (unfold l3; rewrite map_length, seq_length; auto).
  f_equal.
  - rewrite firstn_app, firstn_all2, L1, Nat.sub_diag by lia. cbn. apply app_nil_r.
  - rewrite skipn_app, skipn_all2, L1, Nat.sub_diag by lia. cbn.
    rewrite firstn_app, firstn_all2, L2, Nat.sub_diag by lia. cbn. apply app_nil_r.
  - rewrite app_assoc, skipn_app, skipn_all2 by (rewrite app_length; lia).
    rewrite app_length, L1, L2, Nat.sub_diag. cbn. apply firstn_all2; lia.
Qed.

Lemma reduce_eq : regroup -> forall (a : args K) cs, cs <> [] ->
  reduce o a cs =
  Norms (map (fun k => root o (total (map (fun c => sR c k) cs))) (seq 0 (r_width a)))
        (map (fun k => root o (total (map (fun c => sr c k) cs))) (seq 0 (width (small_r a))))
        (map (fun k => root o (total (map (fun c => sx c k) cs))) (seq 0 (width (small_x a)))).
Proof.
  intros Rg a cs Hne. destruct cs as [|c t]; [easy|]. unfold reduce, global_sum. cbn [map].
  pose proof (fold_packed Rg (r_width a) (width (small_r a)) (width (small_x a)) t (sR c) (sr c) (sx c)) as F.
  unfold packed in F at 1 2. unfold pack. rewrite F. rewrite unpack_packed. reflexivity.
Qed.

Lemma nth_map_seq : forall {T} (f : nat -> T) n k, k < n -> nth_error (map f (seq 0 n)) k = Some (f k).
Proof.
  intros. apply map_nth_error. rewrite (nth_error_nth' _ 0) by (rewrite seq_length; auto).
  rewrite seq_nth by auto. reflexivity.
Qed.

Lemma total_map : forall {T} (f g : T -> K) l, (forall x, In x l -> f x = g x) -> total (map f l) = total (map g l).
Proof. intros T f g l Hl. f_equal. apply map_ext_in. auto. Qed.

(** C44, all processes. *)
Theorem C44_norms : regroup -> forall block (a0 : args K) (ps : list (args K * memory K)),
  0 < block -> ps <> [] ->
  (forall p, In p ps -> fits (fst p) (snd p) /\ apart (fst p) /\ same_request a0 (fst p)) ->
  exists rs, Forall2 (fun p r => update_local o block (fst p) (snd p) = Some r) ps rs /\
  let N := reduce o a0 (map snd rs) in
  (forall q, rr a0 = Some q -> forall j, o_b q <= j < o_e q -> nth_error (nR N) (j - o_b q) =
     Some (root o (total (map (fun p => inner (mV (fst p)) (newR (fst p) (snd p)) (newR (fst p) (snd p)) j j) ps)))) /\
  (forall b e, small_r a0 = Some (b, e) -> forall j, b <= j < e -> nth_error (nr N) (j - b) =
     Some (root o (total (map (fun p => inner (mV (fst p)) (newR (fst p) (snd p)) (newR (fst p) (snd p)) j j) ps)))) /\
  (forall b e, small_x a0 = Some (b, e) -> forall j, b <= j < e -> nth_error (nx N) (j - b) =
     Some (root o (total (map (fun p => inner (mV (fst p)) (newX (fst p) (snd p)) (newX (fst p) (snd p)) j j) ps)))).
Proof.
  intros Rg block a0 ps Hb Hne Hps.
  assert (exists rs, Forall2 (fun p r => update_local o block (fst p) (snd p) = Some r /\
     sums_at (fst p) (snd p) (mV (fst p)) (snd r)) ps rs) as (rs & F).
  { clear Hne. induction ps as [|p t IH]; [exists []; constructor|].
    destruct IH as (rs & F); [intros; apply Hps; right; auto|].
    destruct (Hps p (or_introl eq_refl)) as (Hf & Ha & _).
    destruct (C44_update Rg block (fst p) (snd p) Hb Hf Ha) as (s' & c & E & _ & _ & _ & _ & _ & Q).
    exists ((s', c) :: rs). constructor; auto. }
  exists rs. split.
  { clear - F. induction F; constructor; intuition. }
  assert (Hrs : map snd rs <> []) by (destruct F; easy).
  cbv zeta. rewrite reduce_eq by auto. cbn [nR nr nx]. rewrite !map_map || idtac.
  assert (Tot : forall (f : sums K -> K) (g : args K * memory K -> K),
     (forall p (r : memory K * sums K), In p ps -> sums_at (fst p) (snd p) (mV (fst p)) (snd r) -> f (snd r) = g p) ->
     total (map f (map snd rs)) = total (map g ps)).
  { intros f g Hfg. clear - F Hfg. induction F as [|p r t t' [_ Hs] _ IH]; auto.
    cbn. rewrite (Hfg p r) by (auto; left; auto). f_equal. apply IH. intros; apply Hfg; auto. right; auto. }
  split; [|split].
  - intros q Eq j Hj. rewrite nth_map_seq by (unfold r_width; rewrite Eq; lia). f_equal. f_equal.
    apply Tot. intros p r Hp (CR & _). destruct (Hps p Hp) as (_ & _ & (Sq & _)). rewrite Eq in Sq.
    destruct (rr (fst p)) as [q'|] eqn:Eq'; [|easy]. destruct Sq as [S1 S2]. rewrite S1.
    apply (CR q' eq_refl). lia.
  - intros b e Eq j Hj. rewrite nth_map_seq by (unfold width; rewrite Eq; lia). f_equal. f_equal.
    apply Tot. intros p r Hp (_ & Cr & _). destruct (Hps p Hp) as (_ & _ & (_ & S1 & _)).
    apply (Cr b e); congruence || auto.
  - intros b e Eq j Hj. rewrite nth_map_seq by (unfold width; rewrite Eq; lia). f_equal. f_equal.
    apply Tot. intros p r Hp (_ & _ & Cx & _). destruct (Hps p Hp) as (_ & _ & (_ & _ & S1)).
    apply (Cx b e); congruence || auto.
Qed.
End Spec.

(** ** A case: integers, V and W overwritten in place, residual of column 1 beside W, all
    norms, three rows. *)
Definition zops : ops Z := Ops Z 0%Z Z.add Z.mul Z.sub (fun x => x) Z.sqrt.
Definition ex_s : memory Z :=
  Mem (fun x r c => Z.of_nat (x * 7 + r * r * 3 + c * (r + 1) + 1)) (fun _ => 3) (fun _ => 3).
Definition ex_a : args Z :=
  Args (0, 0) (1, 0) None 3 2 (fun k j => Z.of_nat (k + 2 * j + 1)) 2 (fun j => Z.of_nat (j + 2))
    [Out (0, 0) 0 2] (Some (Out (1, 0) 0 2)) (Some (Out (1, 2) 1 2)) [] (Some (0, 1)) (Some (0, 2)) 2 2.

Example C44_ex_ops : regroup zops /\ distributes zops.
Proof.
  split; [|]; repeat split; cbn; intros; try lia; try nia.
Qed.

Example C44_ex_hyps : fits ex_a ex_s /\ apart ex_a.
Proof.
  split.
  - unfold fits, place_fits. cbn [ex_a ex_s aV aW aBV mV nV nh xs wo rr bxs small_r small_x nG nH rows cols fst snd].
    split; [lia|]. split; [lia|]. split; [easy|]. split.
    + intros q Hq. cbn in Hq. intuition (subst; cbn; lia).
    + split; [intros b e [E|E]; inversion E; lia|lia].
  - unfold apart, outputs, off, clear_of, covers, in_source, b_outs, olist. cbn. split; [|split].
    + repeat constructor; cbn; intros; lia.
    + intros q [<-|[]]; cbn; intros; lia.
    + easy.
Qed.

Example C44_ex : forall block, In block [1; 2; 3; 50] ->
  match update_local zops block ex_a ex_s with
  | Some (s, c) =>
    map (fun r => map (val s 0 r) [0; 1; 2]) [0; 1; 2] =
      [[ (1 * 1 + 2 * 2); (1 * 3 + 2 * 4); 3]; [(4 * 1 + 6 * 2); (4 * 3 + 6 * 4); 8]; [(13 * 1 + 16 * 2); (13 * 3 + 16 * 4); 19]]%Z /\
    sR c 0 = ((8 * 3 + 9 * 4 - 3 * 11) ^ 2 + (11 * 3 + 13 * 4 - 3 * 36) ^ 2 + (20 * 3 + 23 * 4 - 3 * 103) ^ 2)%Z
  | None => False
  end.
Proof. intros block H. cbn [In] in H. intuition subst; vm_compute; auto. Qed.
