(** C61: outer iterations, pairs found after the orthogonalisation, and examples. *)
From Verif Require Import Base Values PermModel SelectModel SelectProofs PropsSelect
  RitzModel LockModel LockProofs RestartModel MainModel SpecMain MonitorModel SpecMonitor PropsMonitor PropsMonitor2.
From Verif Require PropsMain.
From Coq Require Import List Arith ZArith Bool Lia Sorted Permutation.
Import ListNotations.

(** The monitor is called once in every outer iteration: over any history the reports carry
    the numbers of the iterations one after another, none missing and none twice, up to
    the number in the statistics at the end. *)
Theorem C61_outer_each : forall p s h s', steps p s h s' ->
  map n_its (reports_of p s h) = seq (S (outer s)) (outer s' - outer s) /\ outer s <= outer s'.
Proof.
  intros p s h s' H. induction H as [s|s o h s' Hp Hl H IH]; [rewrite Nat.sub_diag; auto|].
  destruct IH as [IH1 IH2]. cbn [reports_of]. rewrite map_app, IH1.
  assert (D : outer (step p o s) = outer s + length (outer_reports p o s) /\
              map n_its (outer_reports p o s) = seq (S (outer s)) (length (outer_reports p o s))).
  { unfold outer_reports, step. destruct (pc s) eqn:Ep; cbn [map length].
    - destruct (under p s); cbn; auto.
    - destruct (_ && _); cbn; auto.
    - destruct (_ && _); cbn [map length n_its].
      + split; [|reflexivity]. unfold expand. cbv zeta.
        repeat match goal with |- context [if ?b then _ else _] => destruct b end; cbn; lia.
      + cbn. auto.
    - unfold after, add_guesses. cbv zeta.
      repeat match goal with |- context [if ?b then _ else _] => destruct b end; cbn; auto.
    - unfold finish. cbv zeta.
      repeat match goal with |- context [if ?b then _ else _] => destruct b end; cbn; auto.
    - auto. }
  destruct D as [D1 D2]. rewrite D2. rewrite D1 in *.
  split; [|lia]. rewrite <- seq_app || idtac.
  replace (outer s' - outer s) with (length (outer_reports p o s) + (outer s' - (outer s + length (outer_reports p o s)))) by lia.
  rewrite seq_app. f_equal.
Qed.
Print Assumptions C61_outer_each.

(** Every one of these reports is of a turn of the loop, and says what the turn found: the
    pairs converged are those the turn goes on with, apart from the ones that are found
    converged after the orthogonalisation and are reported on their own; the basis is the
    one before it is expanded; the locked pairs are those of the turn, before and after. *)
Theorem C61_outer_numbers : forall p s h s' r, 1 <= p_maxBlock p -> steps p s h s' -> In r (reports_of p s h) ->
  exists h1 o h2 s1, h = h1 ++ o :: h2 /\ steps p s h1 s1 /\ steps p (step p o s1) h2 s' /\
    n_its r = outer (step p o s1) /\ n_its r = S (outer s1) /\
    n_size r = bsz s1 /\ n_size r < p_maxBasis p /\
    n_block r <= p_maxBlock p /\ n_size r + n_block r <= p_maxBasis p /\
    n_locked r = nl s1 /\ n_locked r = nl (step p o s1) /\
    nc s1 <= n_conv r <= nc (step p o s1) /\
    nc (step p o s1) - n_conv r <= n_block r /\
    (p_late p = false -> n_conv r = nc (step p o s1)).
Proof.
  intros p s h s' r M H. induction H as [s|s o h s' Hp Hl H IH]; intros Hr; [destruct Hr|].
  cbn [reports_of] in Hr. apply in_app_or in Hr. destruct Hr as [Hr|Hr].
  - exists [], o, h, s. split; [reflexivity|]. split; [constructor|]. split; [exact H|].
    unfold outer_reports in Hr. destruct (pc s) eqn:Ep; try (destruct Hr; fail).
    destruct ((bsz s <? p_maxBasis p) && under p s) eqn:Eb; [|destruct Hr].
    destruct Hr as [<-|[]]. cbn [n_its n_conv n_size n_block n_locked].
    unfold step. rewrite Ep, Eb. apply andb_prop in Eb. destruct Eb as [Eb _]. apply Nat.ltb_lt in Eb.
    pose proof (l_blk _ _ _ Hl) as B. unfold avail in B.
    assert (B1 : o_blk o <= p_maxBlock p -> o_blk o <= p_maxBasis p - bsz s ->
      S (outer s) = outer (expand p o s) /\ nl s = nl (expand p o s) /\
      nc s + o_rc o <= nc (expand p o s) <= nc s + o_rc o + o_blk o /\
      (p_late p = false -> nc s + o_rc o = nc (expand p o s))).
    { intros _ _. unfold expand, late_pairs. cbv zeta.
      repeat match goal with |- context [if ?b then _ else _] => destruct b eqn:? end; cbn in *; split; auto; split; auto; split; try lia;
        intros L; rewrite ?L in *; cbn in *; try discriminate; lia. }
    assert (C1 : o_blk o <= p_maxBlock p) by (destruct (by_shift p s); lia).
    assert (C2 : o_blk o <= p_maxBasis p - bsz s) by lia.
    destruct (B1 C1 C2) as (D1 & D2 & D3 & D4). repeat split; auto; lia.
  - destruct (IH Hr) as (h1 & o1 & h2 & s1 & -> & K1 & K2 & K). exists (o :: h1), o1, h2, s1.
    split; [reflexivity|]. split; [constructor; assumption|]. split; [exact K2|exact K].
Qed.
Print Assumptions C61_outer_numbers.

Section C61.
Context {R : Type}.
Variable same : bool.
Variable conv : R -> R.
Variable nonneg : R -> bool.
Variable minus_one : R.
Hypothesis neg : nonneg minus_one = false.
Notation look := (look same conv).

(** What the report of an outer iteration says of the pairs in the block: they are the
    chosen ones, not converged, with the residual norms the solver goes on with, and the
    number of pairs found includes those of this iteration. *)
Theorem C61_outer : forall X (q : sel_in) verdict resid (vec : nat -> X) side floor hVals
    flags bnorms iev norms xs bns s' evals nl lflags rnorms,
  handed_over q vec flags bnorms iev norms xs bns ->
  prepare_candidates q verdict resid vec side floor flags bnorms iev norms xs bns = Some s' ->
  let rep := outer_call same conv nonneg minus_one hVals (q_basisSize q) (s_flags s') (s_iev s') (s_bs s')
               (s_bnorms s') (q_numConverged q + s_rc s') evals nl lflags rnorms in
  outer_documented look rep hVals (s_bnorms s') evals rnorms (s_flags s') lflags (s_iev s')
    (q_basisSize q) (s_bs s') nl /\
  r_nconv rep = (q_numConverged q + s_rc s')%Z /\
  forall j, j < s_bs s' -> exists p nm,
    nth_error (s_iev s') j = Some p /\ p < q_basisSize q /\
    nth_error (s_flags s') p = Some UNCONVERGED /\
    nth_error (s_norms s') j = Some nm /\ cell look (r_norms rep) p nm.
Proof.
  intros X q verdict resid vec side floor hVals flags bnorms iev norms xs bns s' evals nl lflags rnorms H E rep.
  assert (D := C61_outer_arguments same conv nonneg minus_one neg hVals (q_basisSize q) (s_flags s') (s_iev s') (s_bs s')
     (s_bnorms s') (q_numConverged q + s_rc s')%Z evals nl lflags rnorms).
  split; [exact D|]. split; [reflexivity|].
  destruct (C24_selection q verdict resid vec side floor flags bnorms iev norms xs bns H)
    as (s2 & E2 & L & Lc & Srt & Ch & _). rewrite E in E2. injection E2 as <-.
  intros j Hj. destruct (get_some _ (chosen s') j ltac:(lia)) as [p Ep]. unfold get in Ep.
  destruct (Ch j p Ep) as (C1 & C2 & C3 & nm & C4 & C5).
  exists p, nm. unfold chosen in Ep. rewrite PropsSelect.nth_error_firstn in Ep.
  destruct (Nat.ltb_spec j (s_bs s')); [|lia].
  split; [auto|]. split; [auto|]. split; [auto|]. split; [auto|].
  destruct D as (_ & _ & Dn & _). apply Dn; [|exact C5]. lia.
Qed.

(** Pairs accepted after the orthogonalisation of the block: one report for each, about a
    pair of the block, with its flag, its norm and the number found so far. *)
Theorem C61_late : forall (q : sel_in) hVals check cnt iev i numEvals flags bnorms nc tr0 flags' bnorms' nc' tr,
  NoDup (firstn cnt (skipn i iev)) ->
  late_r same conv nonneg minus_one q hVals check iev i cnt numEvals flags bnorms nc tr0
    = Some (flags', bnorms', nc', tr0 ++ tr) ->
  exists ps, length ps = length tr /\ NoDup ps /\ nc' = (nc + Z.of_nat (length tr))%Z /\
    (nc' <= Z.max nc numEvals)%Z /\
    (forall p, ~ In p (firstn cnt (skipn i iev)) ->
       nth_error flags' p = nth_error flags p /\ nth_error bnorms' p = nth_error bnorms p) /\
    (forall p, In p ps -> In p (firstn cnt (skipn i iev))) /\
    (forall k p rep, nth_error ps k = Some p -> nth_error tr k = Some rep ->
       r_nconv rep = (nc + Z.of_nat (S k))%Z /\
       exists fl bn nm, converged_documented look rep hVals bn fl (q_basisSize q) p /\
         nth_error fl p = Some PRACTICALLY_CONVERGED /\
         nth_error flags' p = Some PRACTICALLY_CONVERGED /\
         nth_error bn p = Some nm /\ nth_error bnorms' p = Some nm) /\
    (* no accepted pair is left out *)
    (forall p, (forall i f, fst (check i f) <> PRACTICALLY_CONVERGED) ->
       nth_error flags' p = Some PRACTICALLY_CONVERGED ->
       nth_error flags p = Some PRACTICALLY_CONVERGED \/ In p ps).
Proof.
  intros q hVals check. induction cnt as [|c IH]; intros iev i numEvals flags bnorms nc tr0 flags' bnorms' nc' tr ND E; cbn [late_r] in E.
  - injection E as <- <- <- E. assert (tr = []) as -> by (apply (app_inv_head tr0); rewrite app_nil_r; auto).
    exists []. simpl. repeat split; auto; try lia; try (constructor); try contradiction.
    all: try (intros; destruct k; discriminate).
  - destruct (Z.ltb_spec nc numEvals) as [Ln|Ln].
    2:{ injection E as <- <- <- E. assert (tr = []) as -> by (apply (app_inv_head tr0); rewrite app_nil_r; auto).
        exists []. simpl. repeat split; auto; try lia; try (constructor); try contradiction.
        all: try (intros; destruct k; discriminate). }
    apply bind_some in E. destruct E as (p & Ep & E). unfold get in Ep.
    apply bind_some in E. destruct E as (f & Ef & E). cbv zeta in E.
    apply bind_some in E. destruct E as (fl1 & E1 & E). apply put_some_inv in E1. destruct E1 as [L1 ->].
    apply bind_some in E. destruct E as (bn1 & E1 & E). apply put_some_inv in E1. destruct E1 as [L2 ->].
    assert (Sk : skipn i iev = p :: skipn (S i) iev).
    { clear - Ep. revert iev Ep. induction i as [|n IHn]; intros [|a l] Ep; try discriminate; simpl in *; [congruence|].
      apply IHn; auto. }
    rewrite Sk in ND |- *. cbn [firstn] in ND |- *. apply NoDup_cons_iff in ND. destruct ND as [NI ND'].
    assert (Q2 : forall fl, fl = fst (check i f) -> late_r same conv nonneg minus_one q hVals check iev (S i) c numEvals (upd flags p fl) (upd bnorms p (snd (check i f))) nc tr0
              = Some (flags', bnorms', nc', tr0 ++ tr) ->
       exists ps, length ps = length tr /\ NoDup ps /\ nc' = (nc + Z.of_nat (length tr))%Z /\
    (nc' <= Z.max nc numEvals)%Z /\
    (forall p0, ~ In p0 (p :: firstn c (skipn (S i) iev)) ->
       nth_error flags' p0 = nth_error flags p0 /\ nth_error bnorms' p0 = nth_error bnorms p0) /\
    (forall p0, In p0 ps -> In p0 (p :: firstn c (skipn (S i) iev))) /\
    (forall k p rep, nth_error ps k = Some p -> nth_error tr k = Some rep ->
       r_nconv rep = (nc + Z.of_nat (S k))%Z /\
       exists fl bn nm, converged_documented look rep hVals bn fl (q_basisSize q) p /\
         nth_error fl p = Some PRACTICALLY_CONVERGED /\
         nth_error flags' p = Some PRACTICALLY_CONVERGED /\
         nth_error bn p = Some nm /\ nth_error bnorms' p = Some nm) /\
    (* no accepted pair is left out *)
    (forall p, (forall i f, fst (check i f) <> PRACTICALLY_CONVERGED) ->
       nth_error flags' p = Some PRACTICALLY_CONVERGED ->
       nth_error flags p = Some PRACTICALLY_CONVERGED \/ In p ps)).
    { intros fl Hfl E'. destruct (IH _ _ _ _ _ _ _ _ _ _ _ ND' E') as (ps & A1 & A2 & A3 & A4 & A5 & A6 & A7 & A8).
      exists ps. split; [auto|]. split; [auto|]. split; [auto|]. split; [auto|]. split; [|split; [|split; [auto|]]].
      - intros p0 Hp0. destruct (A5 p0) as [B1 B2]; [intros C; apply Hp0; right; auto|].
        rewrite B1, B2, !nth_error_upd_neq; auto; intros ->; apply Hp0; left; auto.
      - intros p0 Hp0. right. auto.
      - intros p0 Hc Hp0. destruct (A8 p0 Hc Hp0) as [B|B]; [|auto].
        destruct (Nat.eq_dec p0 p) as [->|Np].
        + rewrite nth_error_upd_eq in B by auto. exfalso. apply (Hc i f). congruence.
        + rewrite nth_error_upd_neq in B by auto. auto. }
    destruct (fst (check i f)) as [| | |] eqn:Ec in E, Q2; try (apply (Q2 _ eq_refl E)).
    apply bind_some in E. destruct E as (fl2 & E1 & E). apply put_some_inv in E1. destruct E1 as [L3 ->].
    rewrite upd_twice in E.
    set (rep1 := converged_call same conv nonneg minus_one hVals (q_basisSize q) (upd flags p PRACTICALLY_CONVERGED)
                   (skipn i iev) (upd bnorms p (snd (check i f))) (nc + 1)) in *.
    assert (G : forall cnt i flags bnorms nc tr0 r, late_r same conv nonneg minus_one q hVals check iev i cnt numEvals flags bnorms nc tr0 = Some r ->
                exists t, snd r = tr0 ++ t).
    { clear. induction cnt as [|c IH]; intros i flags bnorms nc tr0 r E; cbn [late_r] in E.
      - injection E as <-. exists []. rewrite app_nil_r. auto.
      - destruct (_ <? _)%Z; [|injection E as <-; exists []; rewrite app_nil_r; auto].
        apply bind_some in E. destruct E as (p & _ & E). apply bind_some in E. destruct E as (f & _ & E).
        cbv zeta in E. apply bind_some in E. destruct E as (f1 & _ & E). apply bind_some in E. destruct E as (b1 & _ & E).
        destruct (fst (check i f)); try (eapply IH; exact E).
        apply bind_some in E. destruct E as (f2 & _ & E). apply IH in E. destruct E as [t ->].
        eexists. rewrite <- app_assoc. reflexivity. }
    destruct (G _ _ _ _ _ _ _ E) as [t Et]. cbn [snd] in Et. rewrite <- app_assoc in Et.
    apply app_inv_head in Et. subst tr.
    replace (tr0 ++ [rep1] ++ t) with ((tr0 ++ [rep1]) ++ t) in E by (rewrite <- app_assoc; auto).
    destruct (IH _ _ _ _ _ _ _ _ _ _ _ ND' E) as (ps & A1 & A2 & A3 & A4 & A5 & A6 & A7 & A8).
    exists (p :: ps). cbn [length app]. split; [lia|]. split.
    { constructor; [|auto]. intros C. apply NI. auto. }
    split; [lia|]. split; [lia|]. split; [|split; [|split]].
    + intros p0 Hp0. destruct (A5 p0) as [B1 B2]; [intros C; apply Hp0; right; auto|].
      rewrite B1, B2, !nth_error_upd_neq; auto; intros ->; apply Hp0; left; auto.
    + intros p0 [->|Hp0]; [left; auto|right; auto].
    + intros [|k] p0 rep H1 H2; cbn [nth_error] in H1, H2.
      * injection H1 as <-. injection H2 as <-. unfold rep1. rewrite Sk.
        destruct (converged_arguments same conv nonneg minus_one neg hVals (q_basisSize q)
           (upd flags p PRACTICALLY_CONVERGED) p (skipn (S i) iev) (upd bnorms p (snd (check i f))) (nc + 1)%Z) as [D1 D2].
        split; [rewrite D2; lia|].
        exists (upd flags p PRACTICALLY_CONVERGED), (upd bnorms p (snd (check i f))), (snd (check i f)).
        destruct (A5 p NI) as [B1 B2]. rewrite B1, B2, !nth_error_upd_eq by auto. auto 10.
      * destruct (A7 k p0 rep H1 H2) as [B1 B2]. split; [lia|auto].
    + intros p0 Hc Hp0. destruct (A8 p0 Hc Hp0) as [B|B]; [|right; right; auto].
      destruct (Nat.eq_dec p0 p) as [->|Np]; [right; left; auto|].
      rewrite nth_error_upd_neq in B by auto. auto.
Qed.
End C61.
Print Assumptions C61_outer.
Print Assumptions C61_late.

(* ------------------------------------------------------------------ *)
(** Examples over the integers, with a conversion of the numbers (doubling, to tell
    converted numbers from the others) and without. *)
Definition zneg (x : Z) : bool := (0 <=? x)%Z.
Definition zdbl (x : Z) : Z := (2 * x)%Z.

(** The call of C24_witness: pairs 0 and 3 are accepted. *)
Example C61_converged_witness :
  match prepare_candidates_r false zdbl zneg (-1)%Z q_ex verdict_ex resid_ex (fun p => p) side_ex (fun n => n)
    [10; 11; 12; 13; 14; 15; 16]%Z
    [UNCONVERGED; UNCONVERGED; PRACTICALLY_CONVERGED; UNCONVERGED; UNCONVERGED; UNCONVERGED; UNCONVERGED]
    [0; 0; 0; 0; 0; 0; 0]%Z [0; 1; 9] [1; 6; 0]%Z [0; 1; 9] 2 with
  | Some (s, tr) => map r_nconv tr = [2; 3]%Z /\ map r_bsize tr = [1; 1]%Z /\
      map (fun r => option_map (firstn 1) (r_iblock r)) tr = [Some [0]; Some [3]] /\
      map r_evals tr = [Some (map Some [20; 22; 24; 26; 28; 30; 32]%Z); Some (map Some [20; 22; 24; 26; 28; 30; 32]%Z)] /\
      map r_inner tr = [None; None]
  | None => False
  end.
Proof. vm_compute. repeat split. Qed.

(** The report of that outer iteration: the block is 1, 5, 6. *)
Example C61_outer_witness :
  match prepare_candidates q_ex verdict_ex resid_ex (fun p => p) side_ex (fun n => n)
    [UNCONVERGED; UNCONVERGED; PRACTICALLY_CONVERGED; UNCONVERGED; UNCONVERGED; UNCONVERGED; UNCONVERGED]
    [0; 0; 0; 0; 0; 0; 0]%Z [0; 1; 9] [1; 6; 0]%Z [0; 1; 9] 2 with
  | Some s =>
      let rep := outer_call true zdbl zneg (-1)%Z [10; 11; 12; 13; 14; 15; 16]%Z 7 (s_flags s) (s_iev s) (s_bs s)
               (s_bnorms s) (1 + s_rc s) [5]%Z 1 [CONVERGED] [2]%Z in
      r_event rep = outer_iteration /\ r_size rep = 7%Z /\ r_bsize rep = 3%Z /\
      option_map (firstn 3) (r_iblock rep) = Some [1; 5; 6] /\ r_nconv rep = 3%Z /\
      r_norms rep = Some (map Some [1; 6; 0; 3; 8; 9; 7]%Z) /\ r_levals rep = Some [Some 5%Z] /\
      r_lflags rep = Some [CONVERGED] /\ r_LSRes rep = None
  | None => False
  end.
Proof. vm_compute. repeat split. Qed.

(** Three pairs in the block, 0, 2 and 3, of which 0 and 3 are accepted. *)
Example C61_late_witness :
  let check := fun (i : nat) (f : flag) => (if Nat.eqb i 1 then UNCONVERGED else CONVERGED, Z.of_nat (50 + i)) in
  NoDup (firstn 3 (skipn 0 [0; 2; 3; 9])) /\
  exists fl bn tr, late_r false zdbl zneg (-1)%Z q_ex [1;2;3;4;5;6;7]%Z check [0; 2; 3; 9] 0 3 10
    [UNCONVERGED;UNCONVERGED;UNCONVERGED;UNCONVERGED] [60;61;62;63]%Z 4 [] = Some (fl, bn, 6%Z, [] ++ tr) /\
    fl = [PRACTICALLY_CONVERGED;UNCONVERGED;UNCONVERGED;PRACTICALLY_CONVERGED] /\ bn = [50;61;51;52]%Z /\
    map r_nconv tr = [5; 6]%Z /\ map (fun r => option_map (firstn 1) (r_iblock r)) tr = [Some [0]; Some [3]].
Proof.
  split; [repeat constructor; simpl; intuition discriminate|].
  do 3 eexists. split; [vm_compute; reflexivity|]. repeat split.
Qed.

(** A run with two outer iterations. *)
Example C61_outer_each_witness :
  (exists s, steps PropsMain.ex_lock (start PropsMain.ex_lock 1 1 0 0)
     [PropsMain.quiet; PropsMain.quiet; PropsMain.expand1; PropsMain.converged1; PropsMain.locked1; PropsMain.locked1; PropsMain.locked1] s) /\
  map n_its (reports_of PropsMain.ex_lock (start PropsMain.ex_lock 1 1 0 0)
     [PropsMain.quiet; PropsMain.quiet; PropsMain.expand1; PropsMain.converged1; PropsMain.locked1; PropsMain.locked1; PropsMain.locked1])
   = [1; 2].
Proof.
  split; [destruct PropsMain.C16_run as (s & H & _); exists s; exact H|]. vm_compute. reflexivity.
Qed.

(** Pairs with values 5, 3 and then 4 locked in two restarts: three reports, the new pair last in each. *)
Example C61_locked_witness :
  let rounds := [ [ (5, 50, CONVERGED, 105); (7, 70, UNCONVERGED, 107); (3, 30, PRACTICALLY_CONVERGED, 103) ];
                  [ (4, 40, CONVERGED, 104) ] ]%Z in
  rounds_fit 3 0 rounds /\
  match lock_run_r true zdbl zneg 0%Z Zops smallest [] 3
      (lock_init 3 [0;0;0]%Z [0;0;0]%Z [UNCONVERGED;UNCONVERGED;UNCONVERGED] [0;0;0;0]%Z) rounds [] with
  | Some (_, tr) => map r_nlocked tr = [1; 2; 3]%Z /\
      map (fun r => option_map (fun l => firstn (Z.to_nat (r_nlocked r)) l) (r_levals r)) tr
        = [Some [Some 5]; Some [Some 5; Some 3]; Some [Some 3; Some 5; Some 4]]%Z
  | None => False
  end.
Proof. split; [simpl; lia|]. vm_compute. repeat split. Qed.

Example C61_inner_witness :
  let rep := inner_call true zdbl zneg true 9%Z 8%Z 4 2%Z in
  r_event rep = inner_iteration /\ r_inner rep = Some 4%Z /\ r_LSRes rep = Some [Some 2%Z] /\ r_size rep = 1%Z.
Proof. vm_compute. repeat split. Qed.
