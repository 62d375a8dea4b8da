(** C41: the statistics of the singular value solver and what its monitor is shown. *)
From Coq Require Import List ZArith Arith Reals Lra Lia Bool.
From Verif Require Import Base SvdsModel SvdsConvModel PropsSvdsConv SvdsMonModel.
Import ListNotations.

(** ** Specification: the work of a call is the sum of that of the eigensolver's runs,
    where each product counts for one with A and one with A', and of the solver's own. *)
Definition zsum {T} (f : T -> Z) (l : list T) : Z := fold_right (fun x a => f x + a)%Z 0%Z l.
Definition rsum {T} (f : T -> R) (l : list T) : R := fold_right (fun x a => f x + a)%R 0%R l.
Definition products (w : work) : Z := match w with Product k => k | _ => 0 end.
Definition sums (w : work) : Z := match w with GlobalSum _ => 1 | _ => 0 end.
Definition volume (w : work) : Z := match w with GlobalSum v => v | _ => 0 end.
Definition own_event (ev : event) : list work := match ev with Work w => [w] | _ => [] end.
Definition own (g : stage) : list work := before g ++ flat_map own_event (run g) ++ behind g.
(** No report fails. *)
Definition quiet (l : list event) : Prop := Forall (fun ev => match ev with Report _ e => e = 0%Z | _ => True end) l.

Lemma zsum_app : forall T (f : T -> Z) a b, (zsum f (a ++ b) = zsum f a + zsum f b)%Z.
Proof. intros. induction a; cbn; [reflexivity|]. fold (zsum f (a0 ++ b)). rewrite IHa. fold (zsum f a0). lia. Qed.
Lemma zsum_cons : forall T (f : T -> Z) a l, zsum f (a :: l) = (f a + zsum f l)%Z.
Proof. reflexivity. Qed.
Lemma rsum_cons : forall T (f : T -> R) a l, rsum f (a :: l) = (f a + rsum f l)%R.
Proof. reflexivity. Qed.

Section Counter.
Variables (F : stats -> Z) (fw : work -> Z) (k : Z).
Hypothesis work_F : forall s w, F (do_work s w) = (F s + fw w)%Z.
Hypothesis add_F : forall s p, F (add_stats s p) = (F s + k * F p)%Z.

Lemma works_F : forall l s, F (fold_left do_work l s) = (F s + zsum fw l)%Z.
Proof. induction l as [|w l IH]; intro s; cbn [fold_left]; [cbn; lia|]. rewrite IH, work_F, zsum_cons. lia. Qed.

Lemma events_F : forall l s, quiet l -> F (fst (events s l)) = (F s + zsum fw (flat_map own_event l))%Z.
Proof.
  induction l as [|ev l IH]; intros s Q; [cbn; lia|]. inversion Q as [|? ? H Q']; subst. cbn [events flat_map].
  rewrite zsum_app. destruct (happen s ev) as [s1 o1] eqn:E. specialize (IH s1 Q'). destruct (events s1 l) as [s2 o2].
  cbn [fst] in *. rewrite IH. destruct ev as [w|p e]; cbn in E.
  - injection E as <- _. rewrite work_F. cbn. lia.
  - subst e. cbn in E. injection E as <- _. cbn. lia.
Qed.

Lemma stage_F : forall g s, quiet (run g) ->
  F (fst (do_stage s g)) = (F s + (zsum fw (own g) + k * F (final g)))%Z.
Proof.
  intros g s Q. unfold do_stage, own. pose proof (events_F (run g) (fold_left do_work (before g) s) Q) as H.
  destruct (events _ (run g)) as [s2 o]. cbn [fst] in *. rewrite works_F, add_F, H, works_F, !zsum_app. lia.
Qed.

Lemma call_F : forall gs s, Forall (fun g => quiet (run g)) gs ->
  F (do_call s gs) = (F (reset_stats s) + zsum (fun g => zsum fw (own g) + k * F (final g)) gs)%Z.
Proof.
  intros gs s Q. unfold do_call. generalize (reset_stats s). clear s.
  induction gs as [|g gs IH]; intro s; cbn [fold_left]; [cbn; lia|]. inversion Q; subst.
  rewrite IH, stage_F, zsum_cons by assumption. lia.
Qed.
End Counter.

Section Real.
Variable F : stats -> R.
Hypothesis work_F : forall s w, F (do_work s w) = F s.
Hypothesis add_F : forall s p, F (add_stats s p) = (F s + F p)%R.
Lemma call_R : forall gs s, Forall (fun g => quiet (run g)) gs ->
  F (do_call s gs) = (F (reset_stats s) + rsum (fun g => F (final g)) gs)%R.
Proof.
  assert (W : forall l s, F (fold_left do_work l s) = F s).
  { induction l; intro s; cbn; [reflexivity|]. now rewrite IHl, work_F. }
  assert (Ev : forall l s, quiet l -> F (fst (events s l)) = F s).
  { induction l as [|ev l IH]; intros s Q; [reflexivity|]. inversion Q as [|? ? H Q']; subst. cbn [events].
    destruct (happen s ev) as [s1 o1] eqn:E. specialize (IH s1 Q'). destruct (events s1 l) as [s2 o2].
    cbn [fst] in *. rewrite IH. destruct ev as [w|p e]; cbn in E; [injection E as <- _; apply work_F|].
    subst e. cbn in E. now injection E as <- _. }
  intros gs s Q. unfold do_call. generalize (reset_stats s). clear s.
  induction gs as [|g gs IH]; intro s; cbn [fold_left]; [cbn; lra|]. inversion Q; subst.
  rewrite IH, rsum_cons by assumption. unfold do_stage.
  pose proof (Ev (run g) (fold_left do_work (before g) s) H1) as H.
  destruct (events _ (run g)) as [s2 o]. cbn [fst] in *. rewrite W, add_F, H, W. lra.
Qed.
End Real.

Ltac fields := cbn [outer restarts matvecs preconds gsum bcast vgsum vbcast dots elapsed locking_issue].
Ltac own_work := intros ? []; unfold do_work, products, sums, volume; fields; lia.
Ltac adding := intros; unfold add_stats; fields; lia.

(** The statistics after a call, whatever they were before and whatever was reported. *)
Theorem C41_totals : forall s gs, Forall (fun g => quiet (run g)) gs ->
  let r := do_call s gs in
  matvecs r = zsum (fun g => zsum products (own g) + 2 * matvecs (final g))%Z gs
  /\ outer r = zsum (fun g => outer (final g)) gs
  /\ restarts r = zsum (fun g => restarts (final g)) gs
  /\ preconds r = zsum (fun g => preconds (final g)) gs
  /\ gsum r = zsum (fun g => zsum sums (own g) + gsum (final g))%Z gs
  /\ vgsum r = zsum (fun g => zsum volume (own g) + vgsum (final g))%Z gs
  /\ locking_issue r = zsum (fun g => locking_issue (final g)) gs
  /\ dots r = rsum (fun g => dots (final g)) gs
  /\ elapsed r = rsum (fun g => elapsed (final g)) gs
  /\ tmatvec r = rsum (fun g => tmatvec (final g)) gs
  /\ tprecond r = rsum (fun g => tprecond (final g)) gs
  /\ tortho r = rsum (fun g => tortho (final g)) gs
  /\ tgsum r = rsum (fun g => tgsum (final g)) gs.
Proof.
  assert (Z0 : forall l, zsum (fun _ : work => 0%Z) l = 0%Z).
  { induction l; [reflexivity|]. rewrite zsum_cons, IHl. reflexivity. }
  assert (X : forall (f h : stage -> Z) l, (forall g, f g = h g) -> zsum f l = zsum h l).
  { intros f h l H. induction l; [reflexivity|]. rewrite !zsum_cons, IHl, H. reflexivity. }
  intros s gs Q r. unfold r. repeat split.
  - rewrite (call_F matvecs products 2); auto; [own_work|adding].
  - rewrite (call_F outer (fun _ => 0%Z) 1); auto; [|own_work|adding].
    cbn [outer reset_stats]. rewrite Z.add_0_l. apply X. intro g. rewrite Z0. lia.
  - rewrite (call_F restarts (fun _ => 0%Z) 1); auto; [|own_work|adding].
    cbn [restarts reset_stats]. rewrite Z.add_0_l. apply X. intro g. rewrite Z0. lia.
  - rewrite (call_F preconds (fun _ => 0%Z) 1); auto; [|own_work|adding].
    cbn [preconds reset_stats]. rewrite Z.add_0_l. apply X. intro g. rewrite Z0. lia.
  - rewrite (call_F gsum sums 1); auto; [|own_work|adding].
    cbn [gsum reset_stats]. rewrite Z.add_0_l. apply X. intro g. lia.
  - rewrite (call_F vgsum volume 1); auto; [|own_work|adding].
    cbn [vgsum reset_stats]. rewrite Z.add_0_l. apply X. intro g. lia.
  - rewrite (call_F locking_issue (fun _ => 0%Z) 1); auto; [|own_work|adding].
    cbn [locking_issue reset_stats]. rewrite Z.add_0_l. apply X. intro g. rewrite Z0. lia.
  - rewrite (call_R dots); auto; [cbn; lra|now intros ? []].
  - rewrite (call_R elapsed); auto; [cbn; lra|now intros ? []].
  - rewrite (call_R tmatvec); auto; [cbn; lra|now intros ? []].
  - rewrite (call_R tprecond); auto; [cbn; lra|now intros ? []].
  - rewrite (call_R tortho); auto; [cbn; lra|now intros ? []].
  - rewrite (call_R tgsum); auto; [cbn; lra|now intros ? []].
Qed.

(** A report in the middle of a run shows what was counted before the stage, the own work
    since and twice the eigensolver's products so far. *)
Theorem C41_seen : forall g s pre p post, quiet pre -> run g = pre ++ Report p 0 :: post ->
  exists seen o1 o2, snd (do_stage s g) = o1 ++ seen :: o2 /\ length o1 = length pre - length (flat_map own_event pre)
    /\ matvecs seen = (matvecs s + zsum products (before g) + zsum products (flat_map own_event pre)
                      + 2 * matvecs p)%Z.
Proof.
  intros g s pre p post Q R. unfold do_stage. rewrite R.
  set (s1 := fold_left do_work (before g) s).
  assert (Hs1 : matvecs s1 = (matvecs s + zsum products (before g))%Z)
    by (apply (works_F matvecs products); intros ? []; cbn; lia).
  rewrite <- Hs1. clearbody s1. clear R Hs1.
  assert (G : exists seen o1 o2, snd (events s1 (pre ++ Report p 0 :: post)) = o1 ++ seen :: o2
    /\ length o1 = length pre - length (flat_map own_event pre)
    /\ length (flat_map own_event pre) <= length pre
    /\ matvecs seen = (matvecs s1 + zsum products (flat_map own_event pre) + 2 * matvecs p)%Z).
  { revert s1. induction pre as [|ev pre IH]; intro s1.
    - cbn [app events happen]. cbn [Z.eqb]. destruct (events s1 post) as [s2 o2].
      exists (add_stats s1 p), [], o2. split; [reflexivity|]. split; [reflexivity|]. split; [cbn; lia|]. unfold add_stats. cbn [matvecs flat_map zsum fold_right]. lia.
    - inversion Q as [|? ? H Q']; subst. cbn [app events flat_map].
      destruct (happen s1 ev) as [s2 o] eqn:E. destruct (IH Q' s2) as [seen [o1 [o2 [E1 [L1 [L2 M]]]]]].
      destruct (events s2 (pre ++ Report p 0 :: post)) as [s3 o3]. cbn [snd] in *. subst o3.
      exists seen, (o ++ o1), o2. rewrite app_assoc. rewrite !app_length. destruct ev as [w|q e]; cbn in E.
      + injection E as <- <-. cbn [app own_event length]. repeat split; try lia.
        rewrite M, zsum_cons. destruct w; unfold do_work, products; cbn [matvecs]; lia.
      + subst e. cbn in E. injection E as <- <-. cbn [app own_event length]. repeat split; try lia. }
  destruct G as [seen [o1 [o2 [E1 [L1 [_ M]]]]]]. exists seen, o1, o2.
  destruct (events s1 _) as [s2 o]. cbn [snd] in *. auto.
Qed.

Definition no_stats : stats := Stats 0 0 0 0 0 0 0 0 0 0 0 0 0 0 0 0.
Definition some_stats : stats := Stats 3 1 10 4 2 5 6 7 1 1 1 1 1 1 1 0.
Definition ex_stage : stage := Stage [Product 1] [Report some_stats 0; Work (Product 2)] some_stats [GlobalSum 4].
Example C41_ex : Forall (fun g => quiet (run g)) [ex_stage] /\ matvecs (do_call some_stats [ex_stage]) = 23%Z
  /\ map matvecs (snd (do_stage no_stats ex_stage)) = [21%Z] /\ vgsum (do_call some_stats [ex_stage]) = 10%Z.
Proof. repeat constructor. Qed.

(** Faulty: the broadcasts of earlier calls stay in the statistics. *)
Theorem C41_broadcasts_refuted : exists s gs, Forall (fun g => quiet (run g)) gs
  /\ bcast (do_call s gs) <> zsum (fun g => bcast (final g)) gs
  /\ vbcast (do_call s gs) <> zsum (fun g => vbcast (final g)) gs.
Proof. exists some_stats, [ex_stage]. repeat split; [repeat constructor| |]; cbn; lia. Qed.

(** What they are: those of the calls together. *)
Theorem C41_broadcasts : forall s gs, Forall (fun g => quiet (run g)) gs ->
  bcast (do_call s gs) = (bcast s + zsum (fun g => bcast (final g)) gs)%Z.
Proof.
  intros s gs Q. rewrite (call_F bcast (fun _ => 0%Z) 1); auto; [|own_work|adding].
  cbn [bcast reset_stats]. f_equal. induction gs as [|g gs IH]; [reflexivity|]. inversion Q; subst.
  rewrite !zsum_cons, IH by assumption. f_equal.
  assert (Z0 : forall l, zsum (fun _ : work => 0%Z) l = 0%Z) by (induction l; [reflexivity|rewrite zsum_cons, IHl; reflexivity]).
  rewrite Z0. lia.
Qed.

(** Faulty: after a failed report the products of the stage count twice. *)
Theorem C41_failed_report_refuted : exists gs, forall s,
  matvecs (do_call s gs) = 40%Z /\ zsum (fun g => 2 * matvecs (final g))%Z gs = 20%Z.
Proof. exists [Stage [] [Report some_stats 1] some_stats []]. intro s. split; reflexivity. Qed.

(** ** The reports. *)
Local Open Scope R_scope.

(** One norm for every value. *)
Definition told_ok (t : told) : Prop :=
  length (t_norms t) = length (t_evals t) /\ length (t_lnorms t) = length (t_levals t)
  /\ length (t_lflags t) = length (t_levals t) /\ length (t_flags t) = length (t_evals t).

(** [shows r i lambda nu]: entry [i] of the basis in the report is the singular value of
    the eigenvalue [lambda] of the normal equations, with the norm of the triplet. *)
Definition shows (r : report) (i : nat) (lambda nu : R) : Prop :=
  nth_error (p_svals r) i = Some (Some (sqrt (Rabs lambda)))
  /\ (lambda <> 0 -> nth_error (p_norms r) i = Some (nu / sqrt (Rabs lambda))).

Lemma over_pos : forall r l, l <> 0 -> over r (sval l) = r / sqrt (Rabs l).
Proof.
  intros r l H. unfold over, sval, lt. destruct (Rlt_dec 0 (sqrt (Rabs l))) as [C|C]; [reflexivity|].
  exfalso. apply C. apply sqrt_lt_R0. now apply Rabs_pos_lt.
Qed.

Lemma nth_error_combine : forall A B (a : list A) (b : list B) i x y,
  nth_error a i = Some x -> nth_error b i = Some y -> nth_error (combine a b) i = Some (x, y).
Proof.
  induction a as [|a0 a IH]; intros [|b0 b] [|i] x y H1 H2; try discriminate; cbn in *.
  - injection H1 as <-. now injection H2 as <-.
  - now apply IH.
Qed.

(** One stage with the normal equations: every pair is shown as its triplet. *)
Theorem C41_single : forall m t i lambda nu, m = OpAtA \/ m = OpAAt ->
  nth_error (t_evals t) i = Some lambda -> nth_error (t_norms t) i = Some nu ->
  shows (single_stage m t) i lambda nu.
Proof.
  intros m t i lambda nu Hm H1 H2. destruct Hm; subst m; cbn [single_stage p_svals p_norms]; split; cbn [p_svals p_norms];
    try (intro L; rewrite (map_nth_error _ _ _ (nth_error_combine _ _ _ _ _ _ _ H2 H1)); cbn [fst snd]; now rewrite over_pos);
    now rewrite (map_nth_error _ _ _ H1).
Qed.

(** First of two stages: the locked pairs come first, rightly shown; the values of the
    basis follow, and the block points at the same pairs as before; a locked event is
    shown as the convergence of that pair. *)
Theorem C41_stage1_locked : forall lk pl t r i lambda nu, told_ok t -> stage1 lk pl t = Some r ->
  nth_error (t_levals t) i = Some lambda -> nth_error (t_lnorms t) i = Some nu -> shows r i lambda nu.
Proof.
  intros lk pl t r i lambda nu [_ [L _]] H H1 H2. unfold stage1 in H.
  destruct (_ && _ && _) in H; [discriminate|]. injection H as <-. split; cbn [p_svals p_norms].
  - rewrite map_app, map_app. rewrite nth_error_app1.
    + now rewrite (map_nth_error _ _ _ (map_nth_error sval _ _ H1)).
    + rewrite !map_length. apply nth_error_Some. now rewrite H1.
  - intro Hn. assert (Hi : (i < length (t_lnorms t))%nat) by (apply nth_error_Some; now rewrite H2).
    rewrite nth_error_app1 by (rewrite map_length, combine_length, seq_length; lia).
    assert (Hs : nth_error (seq 0 (length (t_lnorms t))) i = Some i).
    { rewrite (nth_error_nth' _ 0%nat) by (now rewrite seq_length). now rewrite seq_nth. }
    rewrite (map_nth_error _ _ _ (nth_error_combine _ _ _ _ _ _ _ H2 Hs)). cbn [fst snd]. f_equal.
    rewrite <- (over_pos nu lambda Hn). f_equal. rewrite map_app, app_nth1 by (rewrite map_length; lia).
    apply nth_error_nth. now apply map_nth_error.
Qed.

Theorem C41_stage1_values : forall lk pl t r i lambda, stage1 lk pl t = Some r ->
  nth_error (t_evals t) i = Some lambda ->
  nth_error (p_svals r) (length (t_levals t) + i) = Some (Some (sqrt (Rabs lambda))).
Proof.
  intros lk pl t r i lambda H H1. unfold stage1 in H. destruct (_ && _ && _) in H; [discriminate|].
  injection H as <-. cbn [p_svals]. rewrite map_map, map_app, nth_error_app2 by (rewrite map_length; lia).
  rewrite map_length. replace (_ + i - _)%nat with i by lia. now rewrite (map_nth_error _ _ _ H1).
Qed.

Theorem C41_stage1_block : forall lk pl t r k b lambda, stage1 lk pl t = Some r -> t_kind t <> KLocked ->
  nth_error (t_block t) k = Some b -> nth_error (t_evals t) b = Some lambda ->
  exists b', nth_error (p_block r) k = Some (Some b') /\ nth_error (p_svals r) b' = Some (Some (sqrt (Rabs lambda))).
Proof.
  intros lk pl t r k b lambda H K H1 H2. exists (b + length (t_levals t))%nat. split.
  - unfold stage1 in H. destruct (_ && _ && _) in H; [discriminate|]. injection H as <-. cbn [p_block].
    destruct (t_kind t); try contradiction; destruct (t_block t); try (destruct k; discriminate H1);
      cbn [map]; exact (map_nth_error (fun b => Some (b + length (t_levals t))%nat) _ _ H1).
  - rewrite Nat.add_comm. exact (C41_stage1_values lk pl t r b lambda H H2).
Qed.

Theorem C41_stage1_lock_event : forall lk pl t lambda, t_kind t = KLocked ->
  nth_error (t_levals t) (length (t_levals t) - 1) = Some lambda ->
  exists r b, stage1 lk pl t = Some r /\ p_kind r = KConverged /\ hd_error (p_block r) = Some (Some b)
    /\ nth_error (p_svals r) b = Some (Some (sqrt (Rabs lambda))) /\ p_lsvals r = [].
Proof.
  intros lk pl t lambda K H. unfold stage1. rewrite K. cbn [andb]. eexists _, _. split; [reflexivity|].
  cbn [p_kind p_block p_svals p_lsvals hd_error]. repeat split.
  rewrite !map_app, nth_error_app1.
  - now rewrite (map_nth_error _ _ _ (map_nth_error sval _ _ H)).
  - rewrite !map_length. apply nth_error_Some. now rewrite H.
Qed.

(** While nothing is locked the norms of the basis are right. *)
Theorem C41_stage1_norms : forall lk pl t r i lambda nu, told_ok t -> t_levals t = [] -> stage1 lk pl t = Some r ->
  nth_error (t_evals t) i = Some lambda -> nth_error (t_norms t) i = Some nu -> shows r i lambda nu.
Proof.
  intros lk pl t r i lambda nu [L [L2 _]] E H H1 H2. unfold stage1 in H.
  destruct (_ && _ && _) in H; [discriminate|]. injection H as <-. rewrite E in *.
  destruct (t_lnorms t); [|discriminate L2]. split; cbn [p_svals p_norms app length combine seq map].
  - now rewrite (map_nth_error _ _ _ (map_nth_error sval _ _ H1)).
  - intro Hn. assert (Hi : (i < length (t_norms t))%nat) by (apply nth_error_Some; now rewrite H2).
    assert (Hs : nth_error (seq 0 (length (t_norms t))) i = Some i).
    { rewrite (nth_error_nth' _ 0%nat) by (now rewrite seq_length). now rewrite seq_nth. }
    rewrite (map_nth_error _ _ _ (nth_error_combine _ _ _ _ _ _ _ H2 Hs)). cbn [fst snd]. f_equal.
    rewrite <- (over_pos nu lambda Hn). f_equal. apply nth_error_nth. now apply map_nth_error.
Qed.

(** Faulty: once a pair is locked the norms of the basis are divided by the values of
    other triplets. *)
Lemma sqrt4 : sqrt 4 = 2.
Proof. replace 4 with (2 * 2) by lra. apply sqrt_square. lra. Qed.
Definition ex_told : told := Told [1] [3] [0%Z] [0%nat] 1 [4] [1] [2%Z] KOuter.
Theorem C41_stage1_norms_refuted : exists t r, told_ok t /\ stage1 true 1 t = Some r
  /\ nth_error (t_evals t) 0 = Some 1 /\ nth_error (t_norms t) 0 = Some 3
  /\ nth_error (p_norms r) (length (t_levals t)) = Some (3 / 2) /\ 3 / 2 <> 3 / sqrt 1.
Proof.
  exists ex_told. eexists. split; [repeat constructor|]. split; [reflexivity|]. split; [reflexivity|].
  split; [reflexivity|]. split; [|rewrite sqrt_1; lra].
  cbn. f_equal. unfold over, sval. rewrite Rabs_pos_eq, sqrt4 by lra. unfold lt. destruct (Rlt_dec 0 2); lra.
Qed.

(** The residual norm of a triplet made of a pair of the augmented matrix is sqrt 2 times
    that of the pair (for a vector of norm one, whose halves are scaled to norm one). *)
Theorem C41_augmented_norm : forall A At m n s u v, matrix A At m n -> length u = m -> length v = n ->
  residual A At s (scal (sqrt 2) u) (scal (sqrt 2) v)
  = sqrt 2 * norm (minus (At u ++ A v) (scal s (v ++ u))).
Proof.
  intros A At m n s u v M Lu Lv. unfold residual. rewrite (m_A _ _ _ _ M), (m_At _ _ _ _ M), !scal_scal.
  assert (C : forall x, scal (s * sqrt 2) x = scal (sqrt 2) (scal s x)) by (intro x; rewrite scal_scal; f_equal; lra).
  rewrite !C, <- !scal_minus, !dot_scal2.
  assert (S : minus (At u ++ A v) (scal s (v ++ u)) = minus (At u) (scal s v) ++ minus (A v) (scal s u)).
  { pose proof (m_lAt _ _ _ _ M u Lu) as LA. rewrite <- Lv in LA. unfold minus, scal. rewrite map_app.
    revert LA. generalize (At u). generalize (A v). clear. intro Av. induction v as [|b v IH]; intros [|a w] H; try discriminate H; [reflexivity|].
    cbn. f_equal. apply IH. now injection H. }
  rewrite S. unfold norm. rewrite dot_app by reflexivity.
  rewrite <- Rmult_plus_distr_l, Rplus_comm, Rmult_comm.
  rewrite sqrt_mult; [rewrite sqrt_square by apply sqrt_pos; rewrite Rmult_comm; f_equal; f_equal; lra| |].
  - apply Rplus_le_le_0_compat; apply dot_pos.
  - apply Rmult_le_pos; apply sqrt_pos.
Qed.

(** Faulty: with the augmented matrix the reports show half of that norm; in one stage the
    values are not set at all. *)
Theorem C41_augmented_refuted : forall t i nu, nth_error (t_norms t) i = Some nu ->
  (exists x, nth_error (p_norms (single_stage OpAug t)) i = Some x /\ 2 * x = sqrt 2 * nu)
  /\ Forall (fun v => v = None) (p_svals (single_stage OpAug t))
  /\ length (p_svals (single_stage OpAug t)) = length (t_evals t).
Proof.
  intros t i nu H. cbn [single_stage p_norms p_svals]. repeat split.
  - exists (nu / sqrt 2). split; [exact (map_nth_error (fun r => r / sqrt 2) _ _ H)|].
    assert (0 < sqrt 2) by (apply sqrt_lt_R0; lra).
    apply Rmult_eq_reg_r with (sqrt 2); [|lra].
    replace (2 * (nu / sqrt 2) * sqrt 2) with (2 * nu) by (field; lra).
    replace (sqrt 2 * nu * sqrt 2) with (nu * (sqrt 2 * sqrt 2)) by ring. rewrite sqrt_sqrt by lra. ring.
  - apply Forall_forall. intros x Hx. apply in_map_iff in Hx. now destruct Hx as [? [<- _]].
  - apply map_length.
Qed.

(** Second stage: shown as locked are first the triplets of the first stage, with their
    values, norms and as converged, and then those the eigensolver locked. *)
Theorem C41_stage2 : forall extra svals norms t, (extra <= length svals)%nat -> (extra <= length norms)%nat ->
  exists r, stage2 true extra svals norms t = Some r /\ p_stage r = 1%nat
    /\ length (p_lsvals r) = (extra + length (t_levals t))%nat
    /\ (forall i x y, (i < extra)%nat -> nth_error svals i = Some x -> nth_error norms i = Some y ->
          nth_error (p_lsvals r) i = Some (Some x) /\ nth_error (p_lnorms r) i = Some y
          /\ nth_error (p_lflags r) i = Some 2%Z)
    /\ (forall i l f, nth_error (t_levals t) i = Some l -> nth_error (t_lflags t) i = Some f ->
          nth_error (p_lsvals r) (extra + i) = Some (Some l) /\ nth_error (p_lflags r) (extra + i) = Some f)
    /\ p_svals r = map Some (t_evals t) /\ p_block r = map Some (t_block t).
Proof.
  intros extra svals norms t H1 H2. eexists. split; [reflexivity|].
  assert (F : forall (l : list R) i x, (i < extra)%nat -> nth_error l i = Some x -> nth_error (firstn extra l) i = Some x).
  { clear. induction extra; intros l i x Hi Hx; [lia|]. destruct l as [|a l], i; try discriminate Hx; auto.
    cbn in *. apply IHextra; [lia|assumption]. }
  assert (L1 : length (firstn extra svals) = extra) by (rewrite firstn_length; lia).
  assert (L2 : length (firstn extra norms) = extra) by (rewrite firstn_length; lia).
  cbn [p_stage p_lsvals p_lnorms p_lflags p_svals p_block]. repeat split.
  - rewrite map_length, app_length. lia.
  - rewrite map_app, nth_error_app1 by (rewrite map_length; lia). apply map_nth_error. auto.
  - rewrite nth_error_app1 by lia. auto.
  - rewrite nth_error_app1 by (rewrite repeat_length; lia).
    rewrite (nth_error_nth' _ 2%Z) by (rewrite repeat_length; lia). unfold converged. now rewrite nth_repeat.
  - rewrite map_app, nth_error_app2 by (rewrite map_length; lia). rewrite map_length, L1.
    replace (extra + i - extra)%nat with i by lia. now apply map_nth_error.
  - rewrite nth_error_app2 by (rewrite repeat_length; lia). rewrite repeat_length.
    replace (extra + i - extra)%nat with i by lia. assumption.
Qed.

(** Faulty: the number of converged triplets shown in the second stage leaves out those of
    the first stage, which are shown as locked; and if the eigensolver shows a copy of its
    locked values, the report reads before the copy. *)
Theorem C41_stage2_refuted :
  (exists t r, stage2 true 2 [5; 4; 0] [0; 0; 0] t = Some r /\ (p_conv r < length (p_lsvals r))%nat
               /\ t_conv t = length (t_levals t))
  /\ (forall t svals norms, stage2 false 1 svals norms t = None).
Proof.
  split; [|reflexivity]. exists (Told [] [] [] [] 0 [] [] [] KOuter). eexists. split; [reflexivity|]. split; [cbn; lia|reflexivity].
Qed.

Example C41_reports_ex : told_ok ex_told /\ (exists r, stage1 true 1 ex_told = Some r)
  /\ (exists r, stage2 true 1 [5; 4] [0; 0] ex_told = Some r /\ p_lsvals r = [Some 5; Some 4]).
Proof. repeat split; eexists; try split; reflexivity. Qed.
