(** C37, C26: what reaches the caller's arrays. *)
From Coq Require Import List Arith ZArith Bool Lia.
From Verif Require Import Base RestartModel MainModel SpecMain MainProofs PropsMain
  ReturnModel ReturnProofs.
Import ListNotations.

(** ** C37 *)

(** A pair is wanted on the given side if its value, up to its residual norm, is. *)
Definition on_side {V} (g : side) (shift : Z) (c : cand V) : bool :=
  match g with
  | Side_leq => (c_val c - c_norm c <=? shift)%Z
  | Side_geq => (shift <=? c_val c + c_norm c)%Z
  | Side_other => true
  end.

(** With locking, when the iteration stops before all pairs converged, the converged
    pairs stay in front, the best remaining approximations on the wanted side follow
    in their order, as many as fit, each with its own norm and vector; the norms of
    the places left are -1; and the count returned is that of the filled places. *)
Theorem C37_locking : forall V g shift numEvals (cs : list (cand V)) nc ret0 vals norms vecs,
  nc < numEvals -> cs <> [] ->
  length vals = numEvals -> length norms = numEvals -> numEvals <= length vecs ->
  let kept := firstn (numEvals - nc) (filter (on_side g shift) cs) in
  exists vecs',
    copy_back g shift numEvals cs nc ret0 (Out vals norms vecs) =
      Some (nc + length kept,
        Out (firstn nc vals ++ map c_val kept ++ skipn (nc + length kept) vals)
            (firstn nc norms ++ map c_norm kept ++ repeat (-1)%Z (numEvals - (nc + length kept)))
            vecs') /\
    firstn (nc + length kept) vecs' = firstn nc vecs ++ map c_vec kept /\
    length vecs' = length vecs.
Proof.
  intros V g shift E cs nc ret0 vals norms vecs Hn Hc L1 L2 L3 kept.
  assert (Ek : kept = firstn (E - nc) (filter (taken g shift) cs)).
  { unfold kept. f_equal. apply filter_ext. intros c. unfold on_side, taken, ignored.
    destruct g; auto; rewrite Z.ltb_antisym, negb_involutive; reflexivity. }
  clearbody kept. subst kept.
  unfold copy_back. replace (E <=? nc) with false by (symmetry; apply Nat.leb_gt; auto).
  replace (length cs =? 0) with false by (symmetry; apply Nat.eqb_neq; destruct cs; [congruence|discriminate]).
  cbn [orb].
  pose proof (copy_loop_spec g shift E (S (length cs)) cs (firstn nc vals) (skipn nc vals)
    (firstn nc norms) (skipn nc norms) (firstn nc vecs) (skipn nc vecs)) as X.
  rewrite !firstn_skipn, !firstn_length in X.
  specialize (X ltac:(lia) ltac:(lia) ltac:(lia) ltac:(lia) ltac:(lia) ltac:(lia) ltac:(lia)).
  cbn zeta in X. replace (Nat.min nc (length norms)) with nc in X by lia.
  set (acc := firstn (E - nc) (filter (taken g shift) cs)) in *.
  destruct X as (RE' & N' & NV' & X1 & X2 & X3 & X4 & X5). rewrite X5. cbn [bind fst snd r_norms r_vals r_vecs].
  rewrite app_assoc in X2 |- *.
  assert (La : nc + length acc = length (firstn nc norms ++ map c_norm acc)).
  { rewrite app_length, firstn_length, map_length. lia. }
  rewrite app_length, <- La in X2. 
  pose proof (mark_spec (E - (nc + length acc)) (firstn nc norms ++ map c_norm acc) N' ltac:(lia)) as M.
  rewrite <- La in M. rewrite M. cbn [bind].
  eexists. split; [|split].
  - rewrite X4, skipn_skipn, <- app_assoc. reflexivity.
  - assert (Lv : nc + length acc = length (firstn nc vecs ++ map c_vec acc)).
    { rewrite app_length, firstn_length, map_length. lia. }
    rewrite app_assoc, firstn_app, Lv, Nat.sub_diag, firstn_all. cbn. apply app_nil_r.
  - exact X3.
Qed.

(** The count, as main_iter relies on it. *)
Theorem C37_count : forall V g shift numEvals (cs : list (cand V)) nc ret0 vals norms vecs r a,
  nc < numEvals -> cs <> [] ->
  length vals = numEvals -> length norms = numEvals -> numEvals <= length vecs ->
  copy_back g shift numEvals cs nc ret0 (Out vals norms vecs) = Some (r, a) ->
  nc <= r <= numEvals.
Proof.
  intros V g shift E cs nc ret0 vals norms vecs r a Hn Hc L1 L2 L3 H.
  destruct (C37_locking V g shift E cs nc ret0 vals norms vecs Hn Hc L1 L2 L3) as (v & X & _).
  cbn zeta in X. rewrite X in H. inversion H; subst.
  rewrite firstn_length. lia.
Qed.

(** Two places left, three approximations of which the second is on the wrong side. *)
Example C37_example :
  copy_back Side_leq 10 3
    [Cand 9 1 true; Cand 14 2 false; Cand 11 1 true] 1 0
    (Out [5; 0; 0]%Z [0; 0; 0]%Z [false; false; false]) =
  Some (3, Out [5; 9; 11]%Z [0; 1; 1]%Z [false; true; true]).
Proof. reflexivity. Qed.

(** An empty basis, or nothing left to return: the count is left as it was, so the
    converged pairs are not counted and the norms of the rest are not marked. *)
Theorem C37_quick_refuted : forall V g shift numEvals (cs : list (cand V)) nc ret0 a,
  cs = [] \/ numEvals <= nc ->
  copy_back g shift numEvals cs nc ret0 a = Some (ret0, a).
Proof.
  intros V g shift E cs nc ret0 a H. unfold copy_back.
  replace ((E <=? nc) || (length cs =? 0)) with true; auto. symmetry. apply orb_true_iff.
  destruct H as [->|H]; [right; reflexivity|left; apply Nat.leb_le; auto].
Qed.

(** Without locking as many pairs as wanted are returned even if the basis never had
    that many vectors: the limit on the products stops the iteration before. *)
Definition ex_unset : params :=
  {| p_locking := false; p_maxMatvecs := 2; p_maxOuter := 0; p_numEvals := 3; p_maxBasis := 5;
     p_maxBlock := 1; p_minRestart := 3; p_n := 100; p_noc := 0; p_qr := false; p_nshifts := 0;
     p_late := false; p_lockNow := false; p_inner := false; p_B := false; p_ortho := 0 |}.
Definition expand_one : choice :=
  {| o_blk := 1; o_rc := 0; o_reset := false; o_shift := false; o_inner := 0; o_gain := 1;
     o_bmv := 0; o_pract := 0; o_qrdef := false; o_qrerr := false; o_tol := false;
     o_reset2 := false; o_nc := 0; o_nl := 0; o_bsz := 1; o_blk2 := 0; o_failed := 0;
     o_gain2 := 0; o_bmv2 := 0; o_copied := 1; o_ver := 0; o_bsz3 := 0; o_bmv3 := 0 |}.
Definition stop2 : choice :=
  {| o_blk := 0; o_rc := 0; o_reset := false; o_shift := false; o_inner := 0; o_gain := 0;
     o_bmv := 0; o_pract := 0; o_qrdef := false; o_qrerr := false; o_tol := false;
     o_reset2 := false; o_nc := 0; o_nl := 0; o_bsz := 2; o_blk2 := 0; o_failed := 0;
     o_gain2 := 0; o_bmv2 := 0; o_copied := 0; o_ver := 0; o_bsz3 := 0; o_bmv3 := 0 |}.
Theorem C37_unset_refuted : exists p m b g x h s,
  1 <= p_maxBlock p /\ b <= p_maxBasis p /\ steps p (start p m b g x) h s /\ pc s = PDone /\
  (* the basis had at most two vectors at any time *)
  (forall h1 h2 s1, h = h1 ++ h2 -> steps p (start p m b g x) h1 s1 -> bsz s1 <= 2) /\
  nret s = 3.
Proof.
  exists ex_unset, 1, 1, 0, 0, [expand_one; expand_one; expand_one; stop2; stop2; stop2; stop2].
  assert (D : forall h s1 s2, steps ex_unset s1 h s2 -> forall k, firstn k h = h -> True) by auto.
  destruct (runb ex_unset (start ex_unset 1 1 0 0)
    [expand_one; expand_one; expand_one; stop2; stop2; stop2; stop2]) as [s|] eqn:E;
    [|vm_compute in E; discriminate].
  exists s. split; [cbn; lia|]. split; [cbn; lia|]. split; [apply runb_steps; exact E|].
  vm_compute in E. inversion E; subst s. clear E. split; [reflexivity|]. split; [|reflexivity].
  assert (Det : forall h s0 s1, steps ex_unset s0 h s1 -> s1 = fold_left (fun s o => step ex_unset o s) h s0).
  { clear. intros h s0 s1 H. induction H; auto. }
  intros h1 h2 s1 Eh Hs. apply Det in Hs. subst s1. clear D Det.
  repeat (destruct h1 as [|? h1]; [vm_compute; lia|]; cbn [app] in Eh; injection Eh as <- Eh).
  destruct h1; [vm_compute; lia|discriminate].
Qed.

(** ** C26 *)

(** When the caller's types differ from the working ones, every pair counted as
    returned is in the caller's arrays, converted, and nothing else is changed there:
    neither the places after those pairs nor the orthogonality constraints. *)
Theorem C26_returned : forall U W (cin : U -> W) cout junk numEvals initSize numOrthoConst
  (iter : work W -> work W * nat) (u : user U),
  let r := iter (copy_in cin junk numEvals initSize numOrthoConst u) in
  let u' := call cin cout junk numEvals initSize numOrthoConst iter u in
  length (u_vals u) = numEvals -> length (u_norms u) = numEvals ->
  numOrthoConst + numEvals <= length (u_vecs u) ->
  length (w_vals (fst r)) = numEvals -> length (w_norms (fst r)) = numEvals ->
  numOrthoConst + numEvals <= length (w_vecs (fst r)) ->
  snd r <= numEvals ->
  forall j,
    nth_error (u_vals u') j =
      (if j <? snd r then option_map cout (nth_error (w_vals (fst r)) j) else nth_error (u_vals u) j) /\
    nth_error (u_norms u') j =
      (if j <? snd r then option_map cout (nth_error (w_norms (fst r)) j) else nth_error (u_norms u) j) /\
    nth_error (u_vecs u') j =
      (if (numOrthoConst <=? j) && (j <? numOrthoConst + snd r)
       then option_map cout (nth_error (w_vecs (fst r)) j) else nth_error (u_vecs u) j).
Proof.
  intros U W cin cout junk E i0 noc iter u r u' L1 L2 L3 L4 L5 L6 Hr j.
  assert (O : forall k at_ (src : list W) (dst : list U), at_ + k <= length src -> at_ + k <= length dst ->
    nth_error (overwrite cout k at_ src dst) j =
    if (at_ <=? j) && (j <? at_ + k) then option_map cout (nth_error src j) else nth_error dst j).
  { clear. intros k at_ src dst H1 H2. unfold overwrite.
    assert (La : length (firstn at_ dst) = at_) by (rewrite firstn_length; lia).
    destruct (Nat.leb_spec at_ j) as [Ha|Ha]; cbn [andb].
    - rewrite nth_error_app2 by lia. rewrite La.
      assert (Lm : length (map cout (firstn k (skipn at_ src))) = k).
      { rewrite map_length, firstn_length, skipn_length. lia. }
      destruct (Nat.ltb_spec j (at_ + k)) as [Hk|Hk].
      + rewrite nth_error_app1 by lia. rewrite nth_error_map. f_equal.
        rewrite <- (firstn_skipn at_ src) at 2.
        rewrite (nth_error_app2 (firstn at_ src)) by (rewrite firstn_length; lia).
        rewrite firstn_length, Nat.min_l by lia.
        rewrite <- (firstn_skipn k (skipn at_ src)) at 2.
        rewrite nth_error_app1; [reflexivity|]. rewrite firstn_length, skipn_length. lia.
      + rewrite nth_error_app2 by lia. rewrite Lm.
        rewrite <- (firstn_skipn (at_ + k) dst) at 2.
        rewrite nth_error_app2 by (rewrite firstn_length; lia).
        rewrite firstn_length, Nat.min_l by lia. f_equal. lia.
    - rewrite nth_error_app1 by lia.
      rewrite <- (firstn_skipn at_ dst) at 2. rewrite nth_error_app1 by lia. reflexivity. }
  unfold u', call. fold r. cbn [u_vals u_norms u_vecs copy_out].
  rewrite !O by lia. cbn [Nat.leb andb Nat.add]. auto.
Qed.

(** On the way in, main_iter sees the constraints and the initial guesses, converted. *)
Theorem C26_guesses : forall U W (cin : U -> W) junk numEvals initSize numOrthoConst (u : user U) j,
  j < numOrthoConst + initSize ->
  nth_error (w_vecs (copy_in cin junk numEvals initSize numOrthoConst u)) j =
  option_map cin (nth_error (u_vecs u) j).
Proof.
  intros U W cin junk E i0 noc u j H. unfold copy_in. cbn [w_vecs].
  replace (0 <? noc + i0) with true by (symmetry; apply Nat.ltb_lt; lia).
  rewrite nth_error_map. f_equal.
  rewrite <- (firstn_skipn (noc + Nat.max E i0) (u_vecs u)) at 2.
  destruct (Nat.lt_ge_cases j (length (firstn (noc + Nat.max E i0) (u_vecs u)))) as [L|L].
  - rewrite nth_error_app1 by auto. reflexivity.
  - rewrite firstn_length in L.
    rewrite !(proj2 (nth_error_None _ _)); auto; rewrite ?app_length, ?firstn_length, ?skipn_length; lia.
Qed.

(** The working arrays have room for all the pairs wanted and for all the guesses, and for
    the constraints before them; a solver that keeps their sizes meets the conditions of
    C26_returned. *)
Theorem C26_room : forall U W (cin : U -> W) junk numEvals initSize numOrthoConst (u : user U),
  numOrthoConst + Nat.max numEvals initSize <= length (u_vecs u) ->
  let w := copy_in cin junk numEvals initSize numOrthoConst u in
  length (w_vals w) = numEvals /\ length (w_norms w) = numEvals /\
  length (w_vecs w) = numOrthoConst + Nat.max numEvals initSize.
Proof.
  intros U W cin junk E i0 noc u H w. unfold w, copy_in. cbn [w_vals w_norms w_vecs].
  rewrite !repeat_length. split; [auto|]. split; [auto|].
  destruct (0 <? noc + i0); [|apply repeat_length]. rewrite map_length, firstn_length. lia.
Qed.
Print Assumptions C26_room.

Example C26_ex : (* one constraint, two wanted pairs, one returned *)
  call (fun x => x * 10) (fun x => x / 10) 7 2 0 1 (fun w => (Work [30; 40] [1; 2] [5; 60; 70], 1))
    (User [1; 2] [3; 4] [5; 6; 8]) = User [3; 2] [0; 4] [5; 6; 8].
Proof. reflexivity. Qed.

(** Without locking a successful call counts all wanted pairs as returned. *)
Theorem C26_soft_partial : forall p m b g x h s, 1 <= p_maxBlock p -> b <= p_maxBasis p ->
  p_locking p = false ->
  steps p (start p m b g x) h s -> pc s = PDone -> ret s = 0%Z ->
  nret s = p_numEvals p /\ isz s = p_numEvals p.
Proof.
  intros p m b g x h s H1 Hb El H Hd Hr.
  pose proof (inv_steps p _ h s H1 (inv_start p m b g x Hb) H) as I.
  destruct (C16_success p m b g x h s H1 Hb H Hd) as (_ & X & _). destruct (X Hr) as [Y|[Y _]]; [|congruence].
  split; [|exact Y]. clear X Y I.
  assert (J : forall s0 h0 s1, inv p s0 -> (pc s0 = PDone -> ret s0 = 0%Z -> nret s0 = p_numEvals p) ->
     steps p s0 h0 s1 -> pc s1 = PDone -> ret s1 = 0%Z -> nret s1 = p_numEvals p).
  { clear - H1 El. intros s0 h0 s1 I J H. induction H as [|s o h s' Hd L H IH]; auto.
    apply IH; [apply inv_step; auto|]. clear IH H J. intros D R.
    pose proof (i_ret p s I Hd) as Hr. revert D R.
    unfold step. destruct (pc s) eqn:Epc.
    - destruct (under p s); fields; intros; congruence.
    - destruct (_ && negb (whole s)); fields; intros; congruence.
    - destruct ((bsz s <? p_maxBasis p) && under p s) eqn:Ec; fields; intros D R; [|congruence].
      apply andb_true_iff in Ec. destruct Ec as [Ec _]. apply Nat.ltb_lt in Ec.
      destruct (expand_spec p o s I L Epc Ec H1) as (_ & _ & _ & _ & _ & _ & _ & _ & X & _).
      rewrite D in X. destruct X; discriminate.
    - intros D R. pose proof (after_spec p o s (i_bsz p s I) (l_bsz p s o L)) as X. cbn zeta in X.
      destruct X as [[X _]|(_ & g' & k & _ & _ & _ & _ & _ & _ & X & _)]; [rewrite X in D|rewrite D in X]; discriminate.
    - unfold finish. rewrite El. cbn zeta. fields.
      destruct (_ || whole s); fields; intros; [reflexivity|discriminate].
    - congruence. }
  apply (J (start p m b g x) h s); auto; [apply inv_start; auto|].
  unfold start. destruct (p_numEvals p =? 0) eqn:E; cbn; intros; [bools; lia|discriminate].
Qed.

(** With locking and other types than the working ones a successful call that found
    every wanted pair changes nothing in the caller's arrays. *)
Theorem C26_conversion_refuted : forall U W (cin : U -> W) cout junk initSize (u : user U) iter
  p m b g x h s, 1 <= p_maxBlock p -> b <= p_maxBasis p -> p_locking p = true ->
  steps p (start p m b g x) h s -> pc s = PDone -> isz s = p_numEvals p ->
  (forall w, snd (iter w) = nret s) ->
  call cin cout junk (p_numEvals p) initSize (p_noc p) iter u = u.
Proof.
  intros U W cin cout junk i0 u iter p m b g x h s H1 Hb El H Hd Hi Hn.
  unfold call. rewrite Hn. rewrite (C26_locking_refuted p m b g x h s); auto.
  unfold copy_out, overwrite. cbn [firstn map app skipn Nat.add]. rewrite Nat.add_0_r, firstn_skipn.
  destruct u; reflexivity.
Qed.

(** ** The permutation at the end *)

Lemma read_col_spec : forall A m (buf : list A) a, a + m <= length buf ->
  read_col m buf a = Some (firstn m (skipn a buf)).
Proof.
  induction m as [|m IH]; intros buf a H; cbn [read_col]; [reflexivity|].
  destruct (get_some _ buf a ltac:(lia)) as [x Ex]. rewrite Ex. cbn [bind]. rewrite IH by lia. cbn [bind].
  unfold get in Ex. clear - Ex. revert a Ex. induction buf as [|y buf IHb]; intros a Ex; [destruct a; discriminate|].
  destruct a; cbn in *; [inversion Ex; reflexivity|]. apply IHb. auto.
Qed.
Lemma read_col_nth : forall A m (buf : list A) a c, read_col m buf a = Some c ->
  forall i, i < m -> nth_error c i = nth_error buf (a + i).
Proof.
  induction m as [|m IH]; intros buf a c H i Hi; [lia|]. cbn [read_col] in H.
  destruct (get buf a) as [x|] eqn:E; [|discriminate]. cbn [bind] in H.
  destruct (read_col m buf (S a)) as [t|] eqn:E2; [|discriminate]. cbn [bind] in H. inversion H; subst.
  destruct i; cbn; [rewrite Nat.add_0_r; symmetry; exact E|].
  rewrite (IH _ _ _ E2) by lia. f_equal. lia.
Qed.
Lemma read_col_length : forall A m (buf : list A) a c, read_col m buf a = Some c -> length c = m.
Proof.
  induction m as [|m IH]; intros buf a c H; cbn [read_col] in H; [inversion H; reflexivity|].
  destruct (get buf a); [|discriminate]. cbn [bind] in H.
  destruct (read_col m buf (S a)) as [t|] eqn:E2; [|discriminate]. cbn [bind] in H. inversion H; subst.
  cbn. f_equal. eauto.
Qed.
Lemma read_col_oob : forall A m (buf : list A) a, 0 < m -> length buf < a + m -> read_col m buf a = None.
Proof.
  induction m as [|m IH]; intros buf a H0 H; [lia|]. cbn [read_col].
  destruct (get buf a) as [x|] eqn:E; [|reflexivity]. cbn [bind].
  destruct m; [apply get_lt in E; lia|]. rewrite IH by lia. reflexivity.
Qed.
Lemma write_col_spec : forall A (c : list A) buf a, a + length c <= length buf ->
  exists b, write_col c buf a = Some b /\ length b = length buf /\
    forall i, nth_error b i =
      if (a <=? i) && (i <? a + length c) then nth_error c (i - a) else nth_error buf i.
Proof.
  induction c as [|x c IH]; intros buf a H; cbn [write_col length] in *.
  - exists buf. repeat split; auto. intros i.
    destruct (Nat.leb_spec a i), (Nat.ltb_spec i (a + 0)); cbn [andb]; auto; lia.
  - rewrite put_some by lia. cbn [bind].
    destruct (IH (upd buf a x) (S a)) as (b & E & L & N); [rewrite length_upd; lia|].
    exists b. split; auto. split; [rewrite L, length_upd; auto|]. intros i. rewrite N.
    destruct (Nat.eq_dec i a) as [->|Ni].
    + rewrite Nat.leb_refl, Nat.sub_diag. replace (S a <=? a) with false by (symmetry; apply Nat.leb_gt; lia).
      replace (a <? a + S (length c)) with true by (symmetry; apply Nat.ltb_lt; lia). cbn.
      rewrite nth_error_upd_eq; auto. lia.
    + rewrite nth_error_upd_neq by auto.
      destruct (Nat.leb_spec (S a) i), (Nat.leb_spec a i), (Nat.ltb_spec i (S a + length c)),
        (Nat.ltb_spec i (a + S (length c))); cbn [andb]; auto; try lia.
      replace (i - a) with (S (i - S a)) by lia. reflexivity.
Qed.

(** With the leading dimension of the buffer every column ends with the old column the
    permutation names. *)
Theorem C37_permuted : forall A m ld base perm (buf : list A),
  m <= ld -> (base + length perm) * ld <= length buf ->
  Forall (fun k => k < length perm) perm ->
  exists buf', permute_end m ld base perm buf = Some buf' /\ length buf' = length buf /\
    (forall i k r, nth_error perm i = Some k -> r < m ->
       nth_error buf' ((base + i) * ld + r) = nth_error buf ((base + k) * ld + r)) /\
    (forall j, j < base * ld -> nth_error buf' j = nth_error buf j).
Proof.
  intros A m ld base perm buf Hm Hl F. unfold permute_end.
  assert (J : forall p2 i cur, i + length p2 = length perm -> length cur = length buf ->
    Forall (fun k => k < length perm) p2 ->
    exists buf', permute_from m ld base buf p2 i cur = Some buf' /\ length buf' = length buf /\
     (forall j, j < (base + i) * ld -> nth_error buf' j = nth_error cur j) /\
     ((forall j, (base + i) * ld <= j -> nth_error cur j = nth_error buf j) ->
      forall j k r, nth_error p2 j = Some k -> r < m ->
       nth_error buf' ((base + i + j) * ld + r) = nth_error buf ((base + k) * ld + r))).
  { clear F. induction p2 as [|k p2 IH]; intros i cur H1 H2 F; cbn [permute_from length] in *.
    - exists cur. repeat split; auto. intros _ j k r E. destruct j; discriminate.
    - inversion F as [|? ? Fk Ft]; subst.
      destruct (Nat.eqb_spec k i) as [->|Nk].
      + destruct (IH (S i) cur) as (b & E & L & X1 & X2); auto; try lia.
        exists b. split; auto. split; auto. split.
        * intros j Hj. apply X1. nia.
        * intros Hc j k r Ej Hr. destruct j as [|j]; cbn in Ej.
          -- inversion Ej; subst. rewrite Nat.add_0_r. rewrite X1 by nia. apply Hc. nia.
          -- replace (base + i + S j) with (base + S i + j) by lia.
             apply X2; auto. intros j' Hj'. apply Hc. nia.
      + assert (Hk : (base + k) * ld + m <= length buf) by nia.
        rewrite read_col_spec by auto. cbn [bind].
        set (c := firstn m (skipn ((base + k) * ld) buf)).
        assert (Lc : length c = m) by (unfold c; rewrite firstn_length, skipn_length; lia).
        assert (Ec : forall r, r < m -> nth_error c r = nth_error buf ((base + k) * ld + r)).
        { apply read_col_nth. apply read_col_spec. auto. }
        destruct (write_col_spec A c cur ((base + i) * ld)) as (b1 & E1 & L1 & N1); [rewrite Lc, H2; nia|].
        rewrite E1. cbn [bind].
        destruct (IH (S i) b1) as (b & E & L & X1 & X2); auto; try lia.
        exists b. split; auto. split; auto. split.
        * intros j Hj. rewrite X1 by nia. rewrite N1.
          replace ((base + i) * ld <=? j) with false by (symmetry; apply Nat.leb_gt; lia). reflexivity.
        * intros Hc j k' r Ej Hr. destruct j as [|j]; cbn in Ej.
          -- inversion Ej; subst k'. rewrite Nat.add_0_r. rewrite X1 by nia. rewrite N1, Lc.
             replace ((base + i) * ld <=? (base + i) * ld + r) with true by (symmetry; apply Nat.leb_le; lia).
             replace ((base + i) * ld + r <? (base + i) * ld + m) with true by (symmetry; apply Nat.ltb_lt; lia).
             cbn [andb]. replace ((base + i) * ld + r - (base + i) * ld) with r by lia. auto.
          -- replace (base + i + S j) with (base + S i + j) by lia.
             apply X2; auto. intros j' Hj'. rewrite N1, Lc.
             replace (j' <? (base + i) * ld + m) with false by (symmetry; apply Nat.ltb_ge; nia).
             rewrite andb_false_r. apply Hc. nia. }
  destruct (J perm 0 buf ltac:(lia) eq_refl F) as (b & E & L & X1 & X2).
  exists b. split; auto. split; auto. split.
  - intros i k r Ei Hr. specialize (X2 (fun _ _ => eq_refl) i k r Ei Hr).
    rewrite Nat.add_0_r in X2. exact X2.
  - intros j Hj. apply X1. rewrite Nat.add_0_r. auto.
Qed.

(** main_iter uses the caller's leading dimension there, also when the vectors are in
    a converted copy, whose leading dimension is the number of rows: two vectors of
    two rows, kept by the caller in three rows each, are permuted out of the copy. *)
Theorem C37_leading_dimension_refuted : exists nLocal ldevecs numOrthoConst numEvals perm,
  nLocal <= ldevecs /\ is_perm perm numEvals /\
  forall buf : list Z, length buf = nLocal * (numOrthoConst + numEvals) ->
    permute_end nLocal ldevecs numOrthoConst perm buf = None.
Proof.
  exists 2, 3, 0, 2, [1; 0]. split; [lia|]. split; [apply Permutation.perm_swap|].
  intros buf H. unfold permute_end. cbn [permute_from Nat.eqb]. rewrite read_col_oob; [reflexivity|lia|lia].
Qed.

Print Assumptions C37_locking.
Print Assumptions C37_count.
Print Assumptions C37_quick_refuted.
Print Assumptions C37_unset_refuted.
Print Assumptions C37_permuted.
Print Assumptions C37_leading_dimension_refuted.
Print Assumptions C26_returned.
Print Assumptions C26_guesses.
Print Assumptions C26_soft_partial.
Print Assumptions C26_conversion_refuted.
