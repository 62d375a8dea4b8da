(** C40: the eigensolver inside the singular value solver works on A'A, AA' or the
    augmented matrix, whatever the block sizes and leading dimensions.
    C42: the shifts it is given. *)
From Coq Require Import List Arith ZArith Bool Lia Reals Lra Permutation Sorted.
From Verif Require Import Base SvdsModel SvdsOpModel.
Import ListNotations.

(** Column [j], of [m] entries, of the columns [ld] apart that begin at [p]. *)
Definition column {E} (mem : list E) (p m ld j : nat) : list E := firstn m (skipn (p + ld * j) mem).
(** The [n] columns fit the array. *)
Definition fits {E} (mem : list E) (p m ld n : nat) : Prop :=
  m <= ld /\ (n = 0 \/ p + ld * (n - 1) + m <= length mem).
(** Position [k] is in none of the [n] columns. *)
Definition outside (p m ld n k : nat) : Prop := forall j, j < n -> ~ (p + ld * j <= k < p + ld * j + m).

Lemma nth_error_firstn : forall A n (l : list A) i, i < n -> nth_error (firstn n l) i = nth_error l i.
Proof. induction n; intros l i H; [lia|]. destruct l; [now destruct i|]. destruct i; cbn; [reflexivity|apply IHn; lia]. Qed.
Lemma nth_error_skipn : forall A n (l : list A) i, nth_error (skipn n l) i = nth_error l (n + i).
Proof. induction n; intros l i; [reflexivity|]. destruct l; cbn; [now destruct i|apply IHn]. Qed.
Lemma nth_error_ext : forall A (l l' : list A), (forall i, nth_error l i = nth_error l' i) -> l = l'.
Proof.
  induction l as [|a l IH]; intros [|b l'] H; auto; try (specialize (H 0); discriminate H).
  f_equal; [specialize (H 0); cbn in H; congruence|apply IH; intro i; exact (H (S i))].
Qed.

Lemma skipn_add : forall A a b (l : list A), skipn a (skipn b l) = skipn (b + a) l.
Proof. intros A a b l. apply nth_error_ext. intro i. rewrite !nth_error_skipn. f_equal. lia. Qed.

Lemma slice_ext : forall A m q (a b : list A),
  (forall i, i < m -> nth_error a (q + i) = nth_error b (q + i)) -> firstn m (skipn q a) = firstn m (skipn q b).
Proof.
  intros A m q a b H. apply nth_error_ext. intro i.
  destruct (lt_dec i m) as [L|L].
  - rewrite !nth_error_firstn by lia. rewrite !nth_error_skipn. auto.
  - rewrite (proj2 (nth_error_None _ _)), (proj2 (nth_error_None _ _)); auto; rewrite firstn_length; lia.
Qed.

Lemma read_cols_spec : forall A m ld n (mem : list A) p, n = 0 \/ p + ld * (n - 1) + m <= length mem ->
  read_cols mem p m ld n = Some (map (column mem p m ld) (seq 0 n)).
Proof.
  induction n as [|n IH]; intros mem p H; [reflexivity|].
  cbn [read_cols seq map]. unfold read_at.
  replace (S n - 1) with n in H by lia.
  destruct H as [H|H]; [lia|].
  replace (p + m <=? length mem) with true by (symmetry; apply Nat.leb_le; nia).
  cbn [bind]. rewrite IH by (destruct n; [now left|right; cbn in *; nia]). cbn [bind].
  do 2 f_equal; [unfold column; now rewrite Nat.mul_0_r, Nat.add_0_r|].
  rewrite <- seq_shift, map_map. apply map_ext. intro j. unfold column. do 2 f_equal. lia.
Qed.

Lemma write_at_nth : forall A (mem l : list A) p, p + length l <= length mem ->
  exists mem', write_at mem p l = Some mem' /\ length mem' = length mem
    /\ (forall i, i < length l -> nth_error mem' (p + i) = nth_error l i)
    /\ (forall k, ~ (p <= k < p + length l) -> nth_error mem' k = nth_error mem k).
Proof.
  intros A mem l p H. unfold write_at.
  rewrite (proj2 (Nat.leb_le _ _) H). eexists. split; [reflexivity|].
  assert (F : length (firstn p mem) = p) by (rewrite firstn_length; lia).
  repeat split.
  - rewrite !app_length, skipn_length, F. lia.
  - intros i Hi. rewrite nth_error_app2 by lia. rewrite F, nth_error_app1 by lia. f_equal. lia.
  - intros k Hk. destruct (lt_dec k p) as [L|L].
    + rewrite nth_error_app1 by lia. now apply nth_error_firstn.
    + rewrite nth_error_app2 by lia. rewrite F, nth_error_app2 by lia. rewrite nth_error_skipn. f_equal. lia.
Qed.

Lemma write_cols_spec : forall A m ld (cs : list (list A)) mem p,
  Forall (fun c => length c = m) cs -> fits mem p m ld (length cs) ->
  exists mem', write_cols mem p ld cs = Some mem' /\ length mem' = length mem
    /\ (forall j, j < length cs -> column mem' p m ld j = nth j cs [])
    /\ (forall k, outside p m ld (length cs) k -> nth_error mem' k = nth_error mem k).
Proof.
  intros A m ld. induction cs as [|c cs IH]; intros mem p C [M F].
  - exists mem. cbn. repeat split; auto. intros; lia.
  - cbn [write_cols length] in *. inversion C as [|? ? Hc Cs]; subst.
    destruct F as [F|F]; [lia|]. replace (S (length cs) - 1) with (length cs) in F by lia.
    destruct (write_at_nth _ mem c p) as [m1 [E1 [L1 [I1 O1]]]]; [nia|].
    rewrite E1. cbn [bind].
    destruct (IH m1 (p + ld) Cs) as [m2 [E2 [L2 [I2 O2]]]].
    { split; [lia|]. destruct (length cs) as [|n]; [now left|right]. rewrite L1. cbn in *. nia. }
    exists m2. rewrite E2. repeat split; [lia| |].
    + intros [|j] Hj.
      * unfold column. rewrite Nat.mul_0_r, Nat.add_0_r. cbn [nth].
        apply nth_error_ext. intro i. destruct (lt_dec i (length c)) as [L|L].
        -- rewrite nth_error_firstn, nth_error_skipn, O2 by (auto; intros j' Hj' Hk; nia). now apply I1.
        -- rewrite (proj2 (nth_error_None _ _)), (proj2 (nth_error_None _ _)); auto; [lia|rewrite firstn_length; lia].
      * cbn [nth]. rewrite <- I2 by lia. unfold column. do 2 f_equal. lia.
    + intros k Hk. rewrite O2.
      * apply O1. intro Hin. apply (Hk 0); [lia|nia].
      * intros j Hj Hin. apply (Hk (S j)); [lia|]. nia.
Qed.

Lemma column_length : forall E (mem : list E) p m ld n j, fits mem p m ld n -> j < n ->
  length (column mem p m ld j) = m.
Proof.
  intros E mem p m ld n j [M F] H. unfold column. rewrite firstn_length, skipn_length. destruct F; [lia|].
  assert (ld * j <= ld * (n - 1)) by (apply Nat.mul_le_mono_l; lia). lia.
Qed.

Section C40.
Context {E : Type}.
Variables (f g : list E -> list E) (mL nL : nat).
(** The user's function gives columns of the documented lengths. *)
Hypothesis len_f : forall c, length c = nL -> length (f c) = mL.
Hypothesis len_g : forall c, length c = mL -> length (g c) = nL.

Notation mi tr := (if tr then mL else nL).
Notation fn tr := (if tr then g else f).

Lemma user_spec : forall (tr : bool) src p lds dst q ldd bs,
  fits src p (mi tr) lds bs -> fits dst q (mi (negb tr)) ldd bs ->
  exists d', user f g mL nL tr src p lds dst q ldd bs = Some d' /\ length d' = length dst
    /\ (forall j, j < bs -> column d' q (mi (negb tr)) ldd j = fn tr (column src p (mi tr) lds j))
    /\ (forall k, outside q (mi (negb tr)) ldd bs k -> nth_error d' k = nth_error dst k).
Proof.
  intros tr src p lds dst q ldd bs [Ms Fs] Fd. unfold user.
  rewrite read_cols_spec by assumption. cbn [bind].
  set (cs := map (fn tr) (map (column src p (mi tr) lds) (seq 0 bs))).
  assert (Lc : length cs = bs) by (unfold cs; now rewrite !map_length, seq_length).
  destruct (write_cols_spec _ (mi (negb tr)) ldd cs dst q) as [d' [E1 [L1 [I1 O1]]]].
  - apply Forall_forall. intros c Hc. unfold cs in Hc. rewrite map_map in Hc. apply in_map_iff in Hc.
    destruct Hc as [j [<- Hj]]. apply in_seq in Hj.
    assert (length (column src p (mi tr) lds j) = mi tr) by (apply (column_length _ _ _ _ _ bs); [now split|lia]).
    destruct tr; cbn; auto.
  - now rewrite Lc.
  - exists d'. rewrite Lc in *. repeat split; auto.
    intros j Hj. rewrite I1 by assumption. unfold cs. rewrite map_map.
    rewrite nth_indep with (d' := fn tr (column src p (mi tr) lds 0)) by (rewrite map_length, seq_length; lia).
    rewrite (map_nth (fun j => fn tr (column src p (mi tr) lds j))). now rewrite seq_nth by lia.
Qed.

(** [total tr calls]: the columns multiplied by A' ([tr]) or A in the calls. *)
Definition total (tr : bool) (calls : list (bool * nat)) : nat :=
  list_sum (map snd (filter (fun c => Bool.eqb (fst c) tr) calls)).

Lemma total_app : forall tr a b, total tr (a ++ b) = total tr a + total tr b.
Proof. intros. unfold total. now rewrite filter_app, map_app, list_sum_app. Qed.

Lemma fits_sub : forall (mem : list E) m ld b i bs, fits mem 0 m ld b -> i + bs <= b -> fits mem (ld * i) m ld bs.
Proof.
  intros mem m ld b i bs [M F] H. split; [assumption|]. destruct bs; [now left|right]. destruct F as [F|F]; [lia|].
  replace (S bs - 1) with bs by lia.
  assert (ld * (i + bs) <= ld * (b - 1)) by (apply Nat.mul_le_mono_l; lia). nia.
Qed.

Lemma normal_spec : forall (tr : bool) x ldx ldy b maxb y0 fuel i aux y calls,
  0 < maxb -> b - i < fuel -> i <= b ->
  fits x 0 (mi tr) ldx b -> fits y 0 (mi tr) ldy b -> length y = length y0 ->
  length aux = mi (negb tr) * Nat.min maxb b ->
  (forall j, j < i -> column y 0 (mi tr) ldy j = fn (negb tr) (fn tr (column x 0 (mi tr) ldx j))) ->
  (forall k, outside 0 (mi tr) ldy b k -> nth_error y k = nth_error y0 k) ->
  Forall (fun c => 1 <= snd c <= maxb) calls -> (forall d, total d calls = i) ->
  exists y' calls', normal_loop f g (fun _ => 0%Z) mL nL fuel tr x ldx aux ldy b maxb i y calls
                    = Some (Result y' calls' 0)
    /\ length y' = length y0
    /\ (forall j, j < b -> column y' 0 (mi tr) ldy j = fn (negb tr) (fn tr (column x 0 (mi tr) ldx j)))
    /\ (forall k, outside 0 (mi tr) ldy b k -> nth_error y' k = nth_error y0 k)
    /\ Forall (fun c => 1 <= snd c <= maxb) calls' /\ (forall d, total d calls' = b).
Proof.
  intros tr x ldx ldy b maxb y0. induction fuel as [|fuel IH]; intros i aux y calls Hm Hf Hi Fx Fy Ly La Yj Yo Cb Ct; [lia|].
  cbn [normal_loop]. set (bs := Nat.min (b - i) maxb).
  destruct (bs =? 0) eqn:Z.
  - apply Nat.eqb_eq in Z. assert (i = b) by lia. subst i. exists y, calls. repeat split; auto.
  - apply Nat.eqb_neq in Z. assert (Hb : 1 <= bs <= maxb /\ i + bs <= b /\ bs <= Nat.min maxb b) by lia.
    set (lda := if tr then nL else mL). assert (Hl : lda = mi (negb tr)) by (unfold lda; now destruct tr).
    destruct Hb as [Hb1 [Hb2 Hb3]].
    assert (Fa : forall (a : list E), length a = length aux -> fits a 0 (mi (negb tr)) lda bs).
    { intros a Ha. split; [lia|right]. rewrite Ha, La, Hl. clear - Hb1 Hb3.
      assert (mi (negb tr) * (bs - 1) + mi (negb tr) = mi (negb tr) * bs) by (destruct bs; nia). nia. }
    destruct (user_spec tr x (ldx * i) ldx aux 0 lda bs) as [a1 [E1 [L1 [I1 _]]]];
      [now apply fits_sub with b|now apply Fa|].
    rewrite E1. cbn [bind]. cbn [Z.eqb negb].
    assert (Nn : negb (negb tr) = tr) by now destruct tr.
    destruct (user_spec (negb tr) a1 0 lda y (ldy * i) ldy bs) as [y1 [E2 [L2 [I2 O2]]]].
    { now apply Fa. }
    { rewrite Nn. now apply fits_sub with b. }
    rewrite E2. cbn [bind]. cbn [Z.eqb negb]. rewrite Nn in *.
    apply IH; auto; try lia.
    + destruct Fy as [M F]. split; [assumption|]. now rewrite L2.
    + intros j Hj. destruct (lt_dec j i) as [L|L].
      * rewrite <- Yj by assumption. unfold column. apply slice_ext. intros t Ht. apply O2.
        intros u Hu Hin. destruct Fy as [M _].
        assert (ldy * j + ldy <= ldy * i) by (clear - L; nia). nia.
      * replace j with (i + (j - i)) by lia. set (d := j - i).
        assert (Hd : d < bs) by lia.
        specialize (I2 d Hd). specialize (I1 d Hd).
        unfold column in I1, I2 |- *. cbn [Nat.add] in I1, I2 |- *.
        rewrite !Nat.mul_add_distr_l. rewrite I2. f_equal. exact I1.
    + intros k Hk. rewrite O2; [now apply Yo|]. intros u Hu Hin. apply (Hk (i + u)); [lia|]. nia.
    + rewrite <- app_assoc. apply Forall_app. split; [assumption|]. repeat constructor; cbn; lia.
    + intro d. rewrite !total_app, Ct. unfold total. cbn [filter fst]. destruct tr, d; cbn; lia.
Qed.
End C40.

(** The lengths of what the user's functions give. *)
Definition shapes {E} (f g : list E -> list E) (mL nL : nat) : Prop :=
  (forall c, length c = nL -> length (f c) = mL) /\ (forall c, length c = mL -> length (g c) = nL).

(** Whatever the block size, the largest block size and the leading dimensions, every
    column of the result is A'(A x) for the column of the argument, nothing else of the
    result is written, no access is out of bounds, every call of the user's function has
    between one and maxBlockSize columns, and each column is multiplied once by each. *)
Theorem C40_AtA : forall E (f g : list E -> list E) mL nL x ldx y ldy b maxb junk,
  shapes f g mL nL -> 0 < maxb -> fits x 0 nL ldx b -> fits y 0 nL ldy b ->
  exists y' calls, matvec_eigs f g (fun _ => 0%Z) mL nL OpAtA x ldx y ldy b maxb junk
                   = Some (Result y' calls 0)
    /\ length y' = length y
    /\ (forall j, j < b -> column y' 0 nL ldy j = g (f (column x 0 nL ldx j)))
    /\ (forall k, outside 0 nL ldy b k -> nth_error y' k = nth_error y k)
    /\ Forall (fun c => 1 <= snd c <= maxb) calls /\ (forall d, total d calls = b).
Proof.
  intros E f g mL nL x ldx y ldy b maxb junk [Hf Hg] Hm Fx Fy. unfold matvec_eigs.
  apply (normal_spec f g mL nL Hf Hg false); auto; try lia;
    try (now rewrite repeat_length); try (intros; lia).
Qed.

Theorem C40_AAt : forall E (f g : list E -> list E) mL nL x ldx y ldy b maxb junk,
  shapes f g mL nL -> 0 < maxb -> fits x 0 mL ldx b -> fits y 0 mL ldy b ->
  exists y' calls, matvec_eigs f g (fun _ => 0%Z) mL nL OpAAt x ldx y ldy b maxb junk
                   = Some (Result y' calls 0)
    /\ length y' = length y
    /\ (forall j, j < b -> column y' 0 mL ldy j = f (g (column x 0 mL ldx j)))
    /\ (forall k, outside 0 mL ldy b k -> nth_error y' k = nth_error y k)
    /\ Forall (fun c => 1 <= snd c <= maxb) calls /\ (forall d, total d calls = b).
Proof.
  intros E f g mL nL x ldx y ldy b maxb junk [Hf Hg] Hm Fx Fy. unfold matvec_eigs.
  apply (normal_spec f g mL nL Hf Hg true); auto; try lia;
    try (now rewrite repeat_length); try (intros; lia).
Qed.

(** The augmented matrix: a column [v; u] becomes [A'u; Av]. *)
Theorem C40_augmented : forall E (f g : list E -> list E) mL nL x ldx y ldy b maxb junk,
  shapes f g mL nL -> fits x 0 (nL + mL) ldx b -> fits y 0 (nL + mL) ldy b ->
  exists y' calls, matvec_eigs f g (fun _ => 0%Z) mL nL OpAug x ldx y ldy b maxb junk
                   = Some (Result y' calls 0)
    /\ length y' = length y
    /\ (forall j, j < b -> exists v u, column x 0 (nL + mL) ldx j = v ++ u /\ length v = nL
                         /\ column y' 0 (nL + mL) ldy j = g u ++ f v)
    /\ (forall k, outside 0 (nL + mL) ldy b k -> nth_error y' k = nth_error y k)
    /\ (forall d, total d calls = b).
Proof.
  intros E f g mL nL x ldx y ldy b maxb junk [Hf Hg] [Mx Fx] [My Fy]. unfold matvec_eigs.
  destruct (user_spec f g mL nL Hf Hg true x nL ldx y 0 ldy b) as [y1 [E1 [L1 [I1 O1]]]];
    [split; [lia|destruct Fx; [now left|right; lia]]|split; cbn; [lia|destruct Fy; [now left|right; lia]]|].
  rewrite E1. cbn [bind negb Z.eqb].
  destruct (user_spec f g mL nL Hf Hg false x 0 ldx y1 nL ldy b) as [y2 [E2 [L2 [I2 O2]]]];
    [split; [lia|destruct Fx; [now left|right; lia]]|split; cbn; [lia|destruct Fy; [now left|right; lia]]|].
  rewrite E2. cbn [bind negb] in *. eexists _, _. split; [reflexivity|].
  assert (Cut : forall (mem : list E) ld j, column mem 0 (nL + mL) ld j
                = column mem 0 nL ld j ++ column mem nL mL ld j).
  { intros mem ld j. unfold column. cbn [Nat.add]. rewrite <- (firstn_skipn nL (firstn (nL + mL) _)).
    f_equal; [rewrite firstn_firstn; f_equal; lia|].
    rewrite skipn_firstn_comm, skipn_add. f_equal; [lia|]. f_equal. lia. }
  repeat split; [lia| | |].
  - intros j Hj. exists (column x 0 nL ldx j), (column x nL mL ldx j). split; [apply Cut|]. split.
    + apply column_length with b; [split; [lia|destruct Fx; [now left|right; lia]]|assumption].
    + rewrite Cut, I2, <- I1 by assumption. f_equal.
      unfold column. apply slice_ext. intros t Ht. apply O2. intros u Hu Hin. cbn [Nat.add] in Hin.
      assert (u < j \/ u = j \/ j < u) as [C|[C|C]] by lia.
      * assert (ldy * u + ldy <= ldy * j) by (clear - C; nia). lia.
      * subst u. lia.
      * assert (ldy * j + ldy <= ldy * u) by (clear - C; nia). lia.
  - intros k Hk. rewrite O2, O1; [reflexivity| |]; intros u Hu Hin; apply (Hk u Hu); cbn [Nat.add] in *; lia.
  - intros []; cbn; lia.
Qed.

(** If a call of the user's function fails, its code is returned and no other call is
    made; if none fails the code is zero. *)
Lemma normal_error : forall E (f g : list E -> list E) ierr mL nL tr x ldx ldy b maxb fuel i aux y calls r,
  normal_loop f g ierr mL nL fuel tr x ldx aux ldy b maxb i y calls = Some r ->
  (forall k, k < length calls -> ierr k = 0%Z) ->
  (forall k, S k < length (r_calls r) -> ierr k = 0%Z)
  /\ (r_err r = 0%Z -> forall k, k < length (r_calls r) -> ierr k = 0%Z)
  /\ (r_err r <> 0%Z -> r_err r = ierr (length (r_calls r) - 1) /\ length (r_calls r) <> 0).
Proof.
  intros E f g ierr mL nL tr x ldx ldy b maxb. induction fuel as [|fuel IH]; intros i aux y calls r H Hc; [discriminate|].
  cbn [normal_loop] in H. destruct (Nat.min (b - i) maxb =? 0).
  - injection H as <-. cbn. repeat split; auto; try contradiction. intros k Hk. apply Hc. lia.
  - destruct (user f g mL nL tr _ _ _ _ _ _ _) as [a1|]; [|discriminate]. cbn [bind] in H.
    destruct (ierr (length calls) =? 0)%Z eqn:Z1; cbn [negb] in H.
    + apply Z.eqb_eq in Z1.
      destruct (user f g mL nL (negb tr) _ _ _ _ _ _ _) as [y1|]; [|discriminate]. cbn [bind] in H.
      assert (L : length (calls ++ [(tr, Nat.min (b - i) maxb)]) = S (length calls)) by (rewrite app_length; cbn; lia).
      rewrite L in H.
      destruct (ierr (S (length calls)) =? 0)%Z eqn:Z2; cbn [negb] in H.
      * apply Z.eqb_eq in Z2. apply IH in H; [assumption|].
        rewrite app_length, L. cbn. intros k Hk.
        destruct (Nat.eq_dec k (length calls)); [now subst|]. destruct (Nat.eq_dec k (S (length calls))); [now subst|].
        apply Hc. lia.
      * apply Z.eqb_neq in Z2. injection H as <-. cbn [r_calls r_err]. rewrite app_length, L. cbn [length].
        repeat split; try lia.
        -- intros k Hk. destruct (Nat.eq_dec k (length calls)); [now subst|]. apply Hc. lia.
        -- f_equal. lia.
    + apply Z.eqb_neq in Z1. injection H as <-. cbn [r_calls r_err]. rewrite app_length. cbn [length].
      repeat split; try lia.
      * intros k Hk. apply Hc. lia.
      * f_equal. lia.
Qed.

Theorem C40_error : forall E (f g : list E -> list E) ierr mL nL m x ldx y ldy b maxb junk r,
  matvec_eigs f g ierr mL nL m x ldx y ldy b maxb junk = Some r ->
  (forall k, S k < length (r_calls r) -> ierr k = 0%Z)
  /\ (r_err r = 0%Z -> forall k, k < length (r_calls r) -> ierr k = 0%Z)
  /\ (r_err r <> 0%Z -> r_err r = ierr (length (r_calls r) - 1) /\ length (r_calls r) <> 0).
Proof.
  intros E f g ierr mL nL m x ldx y ldy b maxb junk r H. destruct m; unfold matvec_eigs in H.
  - injection H as <-. cbn. repeat split; intros; lia.
  - apply normal_error in H; [assumption|cbn; lia].
  - apply normal_error in H; [assumption|cbn; lia].
  - destruct (user f g mL nL true _ _ _ _ _ _ _) as [y1|]; [|discriminate]. cbn [bind] in H.
    destruct (ierr 0%nat =? 0)%Z eqn:Z1; cbn [negb] in H.
    + apply Z.eqb_eq in Z1. destruct (user f g mL nL false _ _ _ _ _ _ _) as [y2|]; [|discriminate].
      cbn [bind] in H. injection H as <-. cbn. repeat split; try lia.
      * intros k Hk. now replace k with 0 by lia.
      * intros Hz k Hk. destruct k as [|[|k]]; auto; lia.
    + apply Z.eqb_neq in Z1. injection H as <-. cbn. repeat split; try lia.
Qed.

(** With a column to multiply and maxBlockSize not positive nothing is computed, although
    the code is zero: [0 < maxb] above is needed. *)
Theorem C40_no_block : forall E (f g : list E -> list E) ierr mL nL x ldx y ldy b junk,
  matvec_eigs f g ierr mL nL OpAtA x ldx y ldy b 0 junk = Some (Result y [] 0).
Proof. intros. cbn. now rewrite Nat.min_0_r. Qed.

Definition ex_f (c : list Z) : list Z :=                     (* A = [1 2; 0 1; 3 0] *)
  match c with [a; b] => [a + 2 * b; b; 3 * a]%Z | _ => [0; 0; 0]%Z end.
Definition ex_g (c : list Z) : list Z :=                     (* A' *)
  match c with [a; b; d] => [a + 3 * d; 2 * a + b]%Z | _ => [0; 0]%Z end.
Example C40_ex : shapes ex_f ex_g 3 2 /\ fits [1; 0; 9; 0; 1; 9; 1; 1]%Z 0 2 3 3
  /\ matvec_eigs ex_f ex_g (fun _ => 0%Z) 3 2 OpAtA [1; 0; 9; 0; 1; 9; 1; 1]%Z 3 [7; 7; 7; 7; 7; 7; 7]%Z 2 3 2 5%Z
     = Some (Result [10; 2; 2; 5; 12; 7; 7]%Z [(false, 2); (true, 2); (false, 1); (true, 1)] 0%Z)
  /\ matvec_eigs ex_f ex_g (fun k => if k =? 1 then 4%Z else 0%Z) 3 2 OpAtA [1; 0; 9; 0; 1; 9; 1; 1]%Z 3
       [7; 7; 7; 7; 7; 7; 7]%Z 2 3 2 5%Z
     = Some (Result [10; 2; 2; 5; 7; 7; 7]%Z [(false, 2); (true, 2)] 4%Z)
  /\ matvec_eigs ex_f ex_g (fun _ => 0%Z) 3 2 OpAug [1; 0; 1; 1; 1]%Z 5 [7; 7; 7; 7; 7; 7]%Z 5 1 1 5%Z
     = Some (Result [4; 3; 1; 0; 3; 7]%Z [(true, 1); (false, 1)] 0%Z).
Proof.
  repeat split; try reflexivity; cbn; try lia.
  - intros c H. destruct c as [|? [|? [|? ?]]]; try discriminate H; reflexivity.
  - intros c H. destruct c as [|? [|? [|? [|? ?]]]]; try discriminate H; reflexivity.
Qed.

(** ** The limit on products.  If each run of the eigensolver makes at most [s] products
    more than its limit (none but those if the limit is negative), the two make at most
    maxMatvecs + 4 s products with A or A'; with a first stage within its limit, + 2 s. *)
Theorem C40_limit : forall M n1 n2 s : Z, (0 <= M)%Z -> (0 <= s)%Z -> (0 <= n1)%Z ->
  (n1 <= limit1 M + s)%Z -> (n2 <= Z.max 0 (limit2 M n1) + s)%Z ->
  (2 * (n1 + n2) <= M + 4 * s)%Z /\ ((n1 <= limit1 M)%Z -> (2 * (n1 + n2) <= M + 2 * s)%Z).
Proof.
  intros M n1 n2 s HM Hs H0 H1 H2. unfold limit1, limit2 in *.
  rewrite Z.quot_div_nonneg in * by lia. pose proof (Z.mul_div_le M 2 ltac:(lia)). lia.
Qed.
Example C40_limit_ex : (5 <= limit1 9 + 1)%Z /\ (1 <= Z.max 0 (limit2 9 5) + 1)%Z /\ limit1 9 = 4%Z.
Proof. cbn. lia. Qed.

(** ** C42: the shifts. *)
Local Open Scope R_scope.
Definition none : shifts := Shifts None 0 false.

Lemma insert_perm : forall x l, Permutation (x :: l) (insert x l).
Proof.
  induction l as [|y t IH]; cbn; [constructor; constructor|]. destruct (Rle_dec x y); [reflexivity|].
  rewrite <- IH. constructor.
Qed.
Lemma ascending_perm : forall l, Permutation l (ascending l).
Proof. induction l as [|x t IH]; cbn; [constructor|]. rewrite <- insert_perm. now constructor. Qed.
Lemma insert_sorted : forall x l, Sorted Rle l -> Sorted Rle (insert x l).
Proof.
  induction l as [|y t IH]; intro S; cbn; [repeat constructor|].
  destruct (Rle_dec x y) as [L|L]; [now constructor; [|constructor]|].
  inversion S as [|? ? St Hd]; subst. constructor; [auto|].
  destruct t as [|z t]; cbn; [constructor; lra|]. destruct (Rle_dec x z); constructor; [lra|].
  now inversion Hd.
Qed.
Lemma ascending_sorted : forall l, Sorted Rle (ascending l).
Proof. induction l; cbn; [constructor|]. now apply insert_sorted. Qed.

(** The second stage for the smallest values: as many shifts as values wanted, in
    ascending order, none below [minval]; the shift of a found triplet is not above the
    true value [d] it approximates from above with an eigenvalue error within its residual
    norm, as long as [d] is not below [minval], and not below the value less its norm. *)
Theorem C42_stage2 : forall user numSvals minval found s, (length found <= numSvals)%nat -> ptr s = None ->
  exists l, set_shifts true OpAug Smallest user numSvals minval found s = Some (Shifts (Some l) numSvals true)
    /\ length l = numSvals /\ Sorted Rle l /\ Forall (fun x => minval <= x) l
    /\ (exists each, Permutation l (each ++ repeat minval (numSvals - length found))
        /\ Forall2 (fun x p => forall d, 0 <= d -> 0 <= snd p -> d <= fst p ->
                      fst p * fst p - d * d <= snd p * fst p -> x <= Rmax d minval) each found
        /\ Forall2 (fun x p => 0 <= snd p -> 0 <= fst p -> fst p - snd p <= x) each found).
Proof.
  intros user n minval found s Hl Hp. unfold set_shifts. rewrite Hp. cbn [negb andb orb is_none].
  eexists. split; [reflexivity|].
  set (all := map (lower_bound minval) found ++ repeat minval (n - length found)).
  assert (La : length all = n) by (unfold all; rewrite app_length, map_length, repeat_length; lia).
  repeat split.
  - now rewrite <- (Permutation_length (ascending_perm all)).
  - apply ascending_sorted.
  - apply (Permutation_Forall (ascending_perm all)). unfold all. apply Forall_app. split.
    + apply Forall_forall. intros x Hx. apply in_map_iff in Hx. destruct Hx as [p [<- _]]. apply Rmax_r.
    + apply Forall_forall. intros x Hx. apply repeat_spec in Hx. rewrite Hx. apply Rle_refl.
  - exists (map (lower_bound minval) found). split; [symmetry; apply ascending_perm|].
    clear - minval found. split; induction found as [|[v r] t IH]; cbn [map]; constructor; try assumption;
      cbn [fst snd].
    2:{ intros R V. unfold lower_bound. cbn [fst snd]. apply Rle_trans with (2 := Rmax_l _ _).
      destruct (Rle_dec 0 (v - r)) as [C|C]; [|apply Rle_trans with 0; [lra|apply sqrt_pos]].
      rewrite Rmax_left by assumption. rewrite Rabs_pos_eq by (apply Rmult_le_pos; lra).
      rewrite <- (sqrt_square (v - r)) at 1 by assumption. apply sqrt_le_1_alt. nra. }
    intros d D R V H. unfold lower_bound. cbn [fst snd].
    assert (0 <= v) by lra.
    assert (B : sqrt (Rabs (Rmax (v - r) 0 * v)) <= d).
    { rewrite <- (sqrt_square d D). apply sqrt_le_1_alt.
      destruct (Rle_dec 0 (v - r)) as [C|C].
      - rewrite Rmax_left by assumption. rewrite Rabs_pos_eq by (apply Rmult_le_pos; lra). nra.
      - rewrite Rmax_right by lra. rewrite Rmult_0_l, Rabs_R0. nra. }
    apply Rmax_case; [|apply Rmax_r]. apply Rle_trans with d; [assumption|apply Rmax_l].
Qed.

(** The first stage: the caller's shifts for the augmented matrix, their squares for the
    normal equations (if there are no more of them than values wanted). *)
Theorem C42_stage1 : forall m t user numSvals minval s, (0 < length user <= numSvals)%nat ->
  set_shifts false m t user numSvals minval [] s
  = Some match m with
         | OpAtA | OpAAt => Shifts (Some (map (fun x => x * x) user)) (length user) true
         | _ => Shifts (Some user) (length user) false
         end.
Proof.
  intros m t user n minval s [H1 H2]. unfold set_shifts.
  destruct (length user =? 0)%nat eqn:Z; [apply Nat.eqb_eq in Z; lia|]. cbn [negb andb orb].
  rewrite (proj2 (Nat.leb_le _ _) H2). now destruct m.
Qed.

(** Squaring keeps the order of the distances' signs for shifts and values that are not
    negative: a value is above a shift exactly if its square is above the shift given. *)
Theorem C42_squares : forall a d, 0 <= a -> 0 <= d -> (a <= d <-> a * a <= d * d).
Proof. intros a d A D. split; intro H; nra. Qed.

(** Faulty: with more shifts than values wanted the squares are written past the array. *)
Theorem C42_overflow_refuted : exists user numSvals, (length user > numSvals)%nat
  /\ forall t minval s, set_shifts false OpAtA t user numSvals minval [] s = None.
Proof. exists [1; 2], 1%nat. split; [cbn; lia|]. intros. reflexivity. Qed.

(** In the first call after the initialization the second stage uses the caller's shifts. *)
Theorem C42_first_call : forall user numSvals minval found,
  set_shifts true OpAug Closest user numSvals minval found none
  = Some (Shifts (Some user) (length user) false).
Proof. reflexivity. Qed.

(** Faulty: in a later call with the same structure and other shifts it uses those of the
    first call (or what its array, which the caller may have freed, now holds). *)
Theorem C42_later_call_refuted : exists user1 user2 numSvals, forall minval found s1 s2,
  set_shifts true OpAug Closest user1 numSvals minval found none = Some s1 ->
  set_shifts true OpAug Closest user2 numSvals minval found (release s1) = Some s2 ->
  ptr s2 = Some user1 /\ user1 <> user2.
Proof.
  exists [1], [2], 1%nat. intros minval found s1 s2 H1 H2. injection H1 as <-. injection H2 as <-.
  split; [reflexivity|]. intro C. injection C. lra.
Qed.

(** Without shifts from the caller the first stage has one shift, zero, for the smallest
    values of the augmented matrix, and otherwise what was there; the second stage keeps
    shifts that are there already. *)
Theorem C42_no_shifts : forall m t numSvals minval s,
  set_shifts false m t [] numSvals minval [] s
  = Some match m, t, ptr s with
         | OpAug, Smallest, None => Shifts (Some [0]) 1 true
         | _, _, _ => Shifts (ptr s) (num s) false
         end.
Proof. intros m t n minval [[l|] k o]; destruct m, t; reflexivity. Qed.
Theorem C42_kept : forall m t user numSvals minval found s l, ptr s = Some l ->
  set_shifts true m t user numSvals minval found s = Some (Shifts (Some l) (num s) false).
Proof. intros m t user n minval found s l H. unfold set_shifts. rewrite H. destruct m, t; reflexivity. Qed.

(** What was allocated is not left to the next call, nor freed twice. *)
Theorem C42_released : forall stage2 m t user numSvals minval found s s',
  set_shifts stage2 m t user numSvals minval found s = Some s' -> ptr s = None ->
  owned (release s') = false /\ (ptr (release s') = None \/ ptr (release s') = Some user).
Proof.
  intros stage2 m t user n minval found s s' H P. unfold set_shifts in H. rewrite P in H.
  destruct stage2, m, t; cbn in H; try (injection H as <-; cbn; auto);
    destruct (length user =? 0)%nat; cbn in H; try (injection H as <-; cbn; auto);
    destruct (length user <=? n)%nat; try discriminate H; injection H as <-; cbn; auto.
Qed.

Example C42_ex : exists l, set_shifts true OpAug Smallest [] 3 (1/100) [(2, 1); (1, 2)] none
                  = Some (Shifts (Some l) 3 true) /\ Permutation l [sqrt 2; 1/100; 1/100].
Proof.
  eexists. split; [reflexivity|]. symmetry.
  eapply Permutation_trans; [|apply ascending_perm]. cbn [map app Nat.sub length repeat]. unfold lower_bound. cbn [fst snd].
  replace (Rmax (2 - 1) 0 * 2) with 2 by (rewrite Rmax_left; lra).
  replace (Rmax (1 - 2) 0 * 1) with 0 by (rewrite Rmax_right; lra).
  rewrite Rabs_R0, sqrt_0, (Rabs_pos_eq 2) by lra.
  assert (1 <= sqrt 2) by (rewrite <- sqrt_1; apply sqrt_le_1_alt; lra).
  rewrite Rmax_left by lra. rewrite Rmax_right by lra. reflexivity.
Qed.
