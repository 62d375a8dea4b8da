(** C58: what process 0 computes alone reaches every process. *)
From Coq Require Import List Arith Bool Lia.
From Verif Require Import Base BrcastModel.
Import ListNotations.

(** ** Specification: entries of the matrices and vectors the processes hold. *)
Section Spec.
Context {R : Type}.
(** In the first [b] rows and [n] columns from [j0], with [c] components, M' is f of M, and M0 elsewhere. *)
Definition took (c b j0 n : nat) (f : R -> R) (M M0 M' : nat -> nat -> nat -> R) : Prop :=
  forall j i k, M' j i k = if (j0 <=? j) && (j <? j0 + n) && (i <? b) && (k <? c) then f (M j i k) else M0 j i k.
Definition took_vec (n : nat) (f : R -> R) (v v0 v' : nat -> R) : Prop :=
  forall i, v' i = if i <? n then f (v i) else v0 i.
Definition took_opt {A} (t : A -> A -> A -> Prop) (x x0 x' : option A) : Prop :=
  match x, x0, x' with Some a, Some a0, Some a' => t a a0 a' | None, None, None => True | _, _, _ => False end.
(** The arrays of a process are those of process 0. *)
Definition took_all (c b : nat) (f : R -> R) (A A0 A' : arrays) : Prop :=
  took_opt (took c b 0 b f) (a_vecs A) (a_vecs A0) (a_vecs A') /\
  took_opt (took c b 0 b f) (a_U A) (a_U A0) (a_U A') /\
  took_opt (took_vec b f) (a_vals A) (a_vals A0) (a_vals A') /\
  took_opt (took_vec b f) (a_svals A) (a_svals A0) (a_svals A').
(** The same arrays are asked for. *)
Definition same_shape (A B : @arrays R) : Prop :=
  given (a_vecs A) = given (a_vecs B) /\ given (a_U A) = given (a_U B) /\
  given (a_vals A) = given (a_vals B) /\ given (a_svals A) = given (a_svals B).
End Spec.

Lemma nth_error_firstn_lt {A} (l : list A) n i : i < n -> nth_error (firstn n l) i = nth_error l i.
Proof. revert l i. induction n as [|n IH]; intros [|a l] [|i] H; cbn; auto; try lia. apply IH. lia. Qed.
Lemma nth_error_skipn' {A} (l : list A) n i : nth_error (skipn n l) i = nth_error l (n + i).
Proof. revert l. induction n as [|n IH]; intros [|a l]; cbn; auto. now destruct i. Qed.

Section Proofs.
Context {R : Type}.
Variable zero : R. Variable conv : R -> R. Variable np c : nat.
Hypothesis Hc : 1 <= c. Hypothesis Hn : 1 <= np.

Lemma length_rows m (f : nat -> nat -> R) : length (flat_map (fun i => map (fun k => f i k) (seq 0 c)) (seq 0 m)) = m * c.
Proof.
  generalize 0 at 2. induction m as [|m IH]; intros s; [reflexivity|]. cbn [seq flat_map]. rewrite app_length, IH, map_length, seq_length. lia.
Qed.
Lemma length_flat m n (M : @matrix R) : length (flat c m n M) = n * (m * c).
Proof.
  assert (X : forall T (f : nat -> list T) k l s, (forall i, length (f i) = k) -> length (flat_map f (seq s l)) = l * k).
  { intros T f k l. induction l as [|l IH]; intros s H; [reflexivity|]. cbn [seq flat_map]. rewrite app_length, H, IH by auto. lia. }
  unfold flat. apply X. intros j. apply X. intros i. now rewrite map_length, seq_length.
Qed.
Lemma nth_flat_map {T} (f : nat -> list T) k : (forall i, length (f i) = k) -> forall l s i r, i < l -> r < k ->
  nth_error (flat_map f (seq s l)) (i * k + r) = nth_error (f (s + i)) r.
Proof.
  intros H. induction l as [|l IH]; intros s i r Hi Hr; [lia|]. cbn [seq flat_map]. destruct i as [|i].
  - rewrite nth_error_app1 by (rewrite H; lia). now rewrite Nat.add_0_r.
  - rewrite nth_error_app2 by (rewrite H; nia). rewrite H. replace (S i * k + r - k) with (i * k + r) by lia.
    rewrite IH by lia. f_equal. f_equal. lia.
Qed.
Lemma nth_flat m n (M : @matrix R) j i k : j < n -> i < m -> k < c ->
  nth_error (flat c m n M) ((j * m + i) * c + k) = Some (M j i k).
Proof.
  intros Hj Hi Hk. unfold flat.
  replace ((j * m + i) * c + k) with (j * (m * c) + (i * c + k)) by nia.
  rewrite nth_flat_map with (k := m * c); auto; [|intros x; exact (eq_trans (length_rows m (M x)) eq_refl)|nia].
  rewrite nth_flat_map with (k := c); auto; [|intros; now rewrite map_length, seq_length].
  rewrite nth_error_map, nth_error_nth' with (d := 0) by (rewrite seq_length; lia). rewrite seq_nth by lia. reflexivity.
Qed.

(** [w] holds the list [l] at [off]. *)
Definition holds (w : @buf R) (off : nat) (l : list R) : Prop :=
  forall i x, nth_error l i = Some x -> nth_error w (off + i) = Some (Some x).
Definition full (w : @buf R) (n : nat) : Prop := forall i, i < n -> exists x, nth_error w i = Some (Some x).

Lemma write_ok off l (w : @buf R) : off + length l <= length w ->
  exists w', write off l w = Some w' /\ length w' = length w /\ holds w' off l /\
    forall i, i < off \/ off + length l <= i -> nth_error w' i = nth_error w i.
Proof.
  intros H. unfold write. rewrite (proj2 (Nat.leb_le _ _) H). eexists. split; [reflexivity|].
  assert (Lf : length (firstn off w) = off) by (rewrite firstn_length; lia).
  split; [rewrite !app_length, map_length, skipn_length, Lf; lia|]. split.
  - intros i x E. assert (i < length l) by (apply nth_error_Some; congruence).
    rewrite nth_error_app2 by lia. rewrite Lf. replace (off + i - off) with i by lia.
    rewrite nth_error_app1 by (rewrite map_length; lia). rewrite nth_error_map, E. reflexivity.
  - intros i [Hi|Hi].
    + rewrite nth_error_app1 by lia. apply nth_error_firstn_lt. lia.
    + rewrite nth_error_app2 by lia. rewrite Lf, nth_error_app2 by (rewrite map_length; lia). rewrite map_length.
      rewrite nth_error_skipn'. f_equal. lia.
Qed.

Lemma holds_keep off l (w w' : @buf R) a n : holds w off l -> off + length l <= a ->
  (forall i, i < a \/ a + n <= i -> nth_error w' i = nth_error w i) -> holds w' off l.
Proof.
  intros H Ha K i x E. assert (i < length l) by (apply nth_error_Some; congruence). rewrite K by lia. now apply H.
Qed.
Lemma full_grow (w w' : @buf R) a n : full w a -> (forall i, i < a -> nth_error w' i = nth_error w i) ->
  (forall i, i < n -> exists x, nth_error w' (a + i) = Some (Some x)) -> full w' (a + n).
Proof.
  intros F K N i Hi. destruct (Nat.lt_ge_cases i a) as [A|A].
  - rewrite K by lia. auto.
  - replace i with (a + (i - a)) by lia. apply N. lia.
Qed.
Lemma holds_some w off l i : holds w off l -> i < length l -> exists x, nth_error w (off + i) = Some (Some x).
Proof.
  intros H Hi. destruct (nth_error l i) eqn:E; [eauto|]. apply nth_error_None in E. lia.
Qed.

Definition mat_at (b off : nat) (M : option (@matrix R)) (w : buf) : Prop :=
  match M with Some M => holds w off (flat c b b M) | None => True end.
Definition vec_at (b off : nat) (v : option (@vector R)) (w : buf) : Prop :=
  match v with Some v => holds w off (map v (seq 0 b)) | None => True end.
Definition mat_len (b : nat) (M : option (@matrix R)) : nat := if given M then b * b * c else 0.
Definition vec_len (b : nat) (v : option (@vector R)) : nat := if given v then cells c b * c else 0.

Lemma pack_matrix_ok b off M (w : buf) : off + mat_len b M <= length w -> full w off ->
  exists w', pack_matrix c b off M w = Some (off + mat_len b M, w') /\ length w' = length w /\
    full w' (off + mat_len b M) /\ mat_at b off M w' /\ forall i, i < off -> nth_error w' i = nth_error w i.
Proof.
  intros H F. destruct M as [M|]; unfold mat_len, mat_at in *; cbn [given pack_matrix] in *.
  - destruct (write_ok off (flat c b b M) w) as (w' & E & L & Ho & K); [rewrite length_flat; lia|].
    rewrite E. cbn [bind]. exists w'. split; [reflexivity|]. split; [exact L|]. split; [|split; [exact Ho|intros; apply K; lia]].
    apply full_grow with w; [exact F|intros; apply K; lia|].
    intros i Hi. apply holds_some with (flat c b b M); auto. rewrite length_flat. lia.
  - exists w. rewrite Nat.add_0_r. auto.
Qed.
Lemma cells_ok b : 0 < b -> b <= cells c b * c /\ (cells c b - 1) * c < b /\ 1 <= cells c b.
Proof.
  intros Hb. unfold cells. pose proof (Nat.div_mod (b + c - 1) c ltac:(lia)). pose proof (Nat.mod_upper_bound (b + c - 1) c ltac:(lia)).
  set (d := (b + c - 1) / c) in *. nia.
Qed.
Lemma pack_reals_ok b off v (w : buf) : 0 < b -> off + vec_len b v <= length w -> full w off ->
  exists w', pack_reals zero c b off v w = Some (off + vec_len b v, w') /\ length w' = length w /\
    full w' (off + vec_len b v) /\ vec_at b off v w' /\ forall i, i < off -> nth_error w' i = nth_error w i.
Proof.
  intros Hb H F. destruct v as [v|]; unfold vec_len, vec_at in *; cbn [given pack_reals] in *.
  - destruct (cells_ok b Hb) as (C1 & C2 & C3). set (d := cells c b) in *.
    assert (D : (d - 1) * c + c = d * c) by nia.
    assert (P0 : off <= off + (d - 1) * c) by apply Nat.le_add_r.
    destruct (write_ok (off + (d - 1) * c) (repeat zero c) w) as (w1 & E1 & L1 & H1 & K1); [rewrite repeat_length; lia|].
    rewrite repeat_length in K1. rewrite E1. cbn [bind].
    destruct (write_ok off (map v (seq 0 b)) w1) as (w2 & E2 & L2 & H2 & K2); [rewrite map_length, seq_length; lia|].
    rewrite map_length, seq_length in K2. rewrite E2. cbn [bind]. exists w2. split; [reflexivity|]. split; [congruence|].
    split; [|split; [exact H2|intros; rewrite K2, K1; auto; lia]].
    apply full_grow with w; [exact F|intros; rewrite K2, K1; auto; lia|].
    intros i Hi. destruct (Nat.lt_ge_cases i b) as [A|A].
    + apply holds_some with (map v (seq 0 b)); auto. now rewrite map_length, seq_length.
    + rewrite K2 by lia. replace (off + i) with (off + (d - 1) * c + (i - (d - 1) * c)) by lia.
      apply holds_some with (repeat zero c); auto. rewrite repeat_length. lia.
  - exists w. rewrite Nat.add_0_r. auto.
Qed.

Definition off1 b (A : @arrays R) := mat_len b (a_vecs A).
Definition off2 b A := off1 b A + mat_len b (a_U A).
Definition off3 b A := off2 b A + vec_len b (a_vals A).
Definition off4 b A := off3 b A + vec_len b (a_svals A).
Lemma total_off b A : total c b A * c = off4 b A.
Proof. unfold total, off4, off3, off2, off1, mat_len, vec_len. destruct (given (a_vecs A)), (given (a_U A)), (given (a_vals A)), (given (a_svals A)); lia. Qed.

Lemma mat_at_keep b off M w w' n : mat_at b off M w -> off + mat_len b M <= n -> (forall i, i < n -> nth_error w' i = nth_error w i) -> mat_at b off M w'.
Proof.
  destruct M as [M|]; [|auto]. unfold mat_at, mat_len. cbn [given]. intros H L K i x E.
  assert (i < length (flat c b b M)) by (apply nth_error_Some; congruence). rewrite length_flat in *. rewrite K by lia. now apply H.
Qed.
Lemma vec_at_keep b off v w w' n : 0 < b -> vec_at b off v w -> off + vec_len b v <= n -> (forall i, i < n -> nth_error w' i = nth_error w i) -> vec_at b off v w'.
Proof.
  intros Hb. destruct v as [v|]; [|auto]. unfold vec_at, vec_len. cbn [given]. intros H L K i x E.
  assert (i < length (map v (seq 0 b))) by (apply nth_error_Some; congruence). rewrite map_length, seq_length in *.
  destruct (cells_ok b Hb). rewrite K by lia. now apply H.
Qed.

Lemma pack_all_ok b A : 0 < b ->
  exists w, pack_all zero c b A (repeat None (total c b A * c)) = Some w /\ length w = off4 b A /\ full w (off4 b A) /\
    mat_at b 0 (a_vecs A) w /\ mat_at b (off1 b A) (a_U A) w /\ vec_at b (off2 b A) (a_vals A) w /\ vec_at b (off3 b A) (a_svals A) w.
Proof.
  intros Hb. rewrite total_off. unfold pack_all. set (w := repeat None (off4 b A)).
  assert (Lw : length w = off4 b A) by apply repeat_length.
  assert (O : off1 b A <= off2 b A /\ off2 b A <= off3 b A /\ off3 b A <= off4 b A) by (unfold off4, off3, off2; lia).
  destruct (pack_matrix_ok b 0 (a_vecs A) w) as (w1 & E1 & L1 & F1 & M1 & K1); [rewrite Lw; unfold off1 in O; lia|intros i Hi; lia|].
  rewrite E1. cbn [bind fst snd]. change (0 + mat_len b (a_vecs A)) with (off1 b A) in *.
  destruct (pack_matrix_ok b (off1 b A) (a_U A) w1) as (w2 & E2 & L2 & F2 & M2 & K2); [fold (off2 b A); lia|exact F1|].
  rewrite E2. cbn [bind fst snd]. fold (off2 b A) in *.
  destruct (pack_reals_ok b (off2 b A) (a_vals A) w2 Hb) as (w3 & E3 & L3 & F3 & M3 & K3); [fold (off3 b A); lia|exact F2|].
  rewrite E3. cbn [bind fst snd]. fold (off3 b A) in *.
  destruct (pack_reals_ok b (off3 b A) (a_svals A) w3 Hb) as (w4 & E4 & L4 & F4 & M4 & K4); [fold (off4 b A); lia|exact F3|].
  rewrite E4. cbn [bind fst snd]. fold (off4 b A) in *. exists w4. split; [reflexivity|]. split; [lia|]. split; [exact F4|].
  split. { apply mat_at_keep with w1 (off1 b A); auto. intros i Hi. rewrite K4, K3, K2; auto; lia. }
  split. { apply mat_at_keep with w2 (off2 b A); auto. intros i Hi. rewrite K4, K3; auto; lia. }
  split; [|exact M4]. apply vec_at_keep with w3 (off3 b A); auto.
Qed.

(** Sending. *)
Definition sent (x : R) : R := if np =? 1 then x else conv x.
Lemma full_written (w : @buf R) : full w (length w) -> written w = true.
Proof.
  intros F. apply forallb_forall. intros x Hx. apply In_nth_error in Hx as [i E].
  destruct (F i) as [y Ey]; [apply nth_error_Some; congruence|]. rewrite E in Ey. injection Ey as ->. reflexivity.
Qed.
Lemma bcast_ok (bufs : nat -> buf) : (forall p, p < np -> length (bufs p) = length (bufs 0)) -> full (bufs 0) (length (bufs 0)) ->
  exists ws, bcast conv np bufs = Some ws /\ forall p, p < np -> ws p = map (option_map sent) (bufs 0).
Proof.
  intros Hl F. unfold bcast, sent. rewrite (full_written _ F), andb_true_r.
  rewrite (proj2 (forallb_forall _ _)). 2:{ intros p Hp. apply in_seq in Hp. apply Nat.eqb_eq, Hl. lia. }
  destruct (Nat.eqb_spec np 1) as [E|E].
  - eexists. split; [reflexivity|]. intros p Hp. replace p with 0 by lia. clear. induction (bufs 0) as [|[x|] l IH]; cbn; congruence.
  - eexists. split; [reflexivity|]. auto.
Qed.
Lemma read_sent w i x : nth_error w i = Some (Some x) -> read (map (option_map sent) w) i = Some (sent x).
Proof. intros E. unfold read, get. rewrite nth_error_map, E. reflexivity. Qed.

Lemma unflat_ok m j0 n off w (M M0 : @matrix R) : holds w off (flat c m n (fun j => M (j0 + j))) -> off + n * (m * c) <= length w ->
  exists M', unflat c (map (option_map sent) w) off m j0 n M0 = Some M' /\ took c m j0 n sent M M0 M'.
Proof.
  intros H L. unfold unflat. rewrite map_length, (proj2 (Nat.leb_le _ _) L). eexists. split; [reflexivity|].
  intros j i k. cbv beta. destruct (Nat.leb_spec j0 j), (Nat.ltb_spec j (j0 + n)), (Nat.ltb_spec i m), (Nat.ltb_spec k c); cbn [andb]; auto.
  rewrite read_sent with (x := M j i k); auto.
  rewrite <- Nat.add_assoc. apply H. rewrite nth_flat by lia. f_equal. f_equal. lia.
Qed.
Lemma unpack_matrix_ok b off M M0 w : given M = given M0 -> mat_at b off M w -> off + mat_len b M <= length w ->
  exists M', unpack_matrix c b off M0 (map (option_map sent) w) = Some (off + mat_len b M, M') /\ took_opt (took c b 0 b sent) M M0 M'.
Proof.
  intros G H L. destruct M as [M|], M0 as [M0|]; try discriminate; unfold mat_at, mat_len in *; cbn [given unpack_matrix] in *.
  - destruct (unflat_ok b 0 b off w M M0) as (M' & E & T); [exact H|lia|]. rewrite E. cbn [bind].
    exists (Some M'). split; [reflexivity|]. exact T.
  - exists None. rewrite Nat.add_0_r. split; [reflexivity|exact I].
Qed.
Lemma unpack_reals_ok b off v v0 w : 0 < b -> given v = given v0 -> vec_at b off v w -> off + vec_len b v <= length w ->
  exists v', unpack_reals c b off v0 (map (option_map sent) w) = Some (off + vec_len b v, v') /\ took_opt (took_vec b sent) v v0 v'.
Proof.
  intros Hb G H L. destruct v as [v|], v0 as [v0|]; try discriminate; unfold vec_at, vec_len in *; cbn [given unpack_reals] in *.
  - destruct (cells_ok b Hb). unfold unvec. rewrite map_length, (proj2 (Nat.leb_le _ _)) by lia. cbn [bind].
    eexists. split; [reflexivity|]. cbn [took_opt]. intros i. cbv beta. destruct (Nat.ltb_spec i b); auto.
    rewrite read_sent with (x := v i); auto. apply H.
    rewrite nth_error_map, nth_error_nth' with (d := 0) by (rewrite seq_length; lia). now rewrite seq_nth by lia.
  - exists None. rewrite Nat.add_0_r. split; [reflexivity|exact I].
Qed.

Lemma shape_total b (A B : @arrays R) : same_shape A B -> total c b A = total c b B.
Proof. intros (H1 & H2 & H3 & H4). unfold total. now rewrite H1, H2, H3, H4. Qed.

Lemma brcast_ok b (As : nat -> arrays) : 0 < b -> (forall p, p < np -> same_shape (As 0) (As p)) ->
  exists f, solve_H_brcast zero conv np c b As = Some f /\
    forall p, p < np -> exists A', f p = Some A' /\ took_all c b sent (As 0) (As p) A'.
Proof.
  intros Hb Sh. unfold solve_H_brcast. rewrite (proj2 (Nat.eqb_neq b 0)) by lia.
  destruct (pack_all_ok b (As 0) Hb) as (w & E & Lw & F & M1 & M2 & M3 & M4). rewrite E. cbn [bind].
  destruct (bcast_ok (fun p => if p =? 0 then w else repeat None (total c b (As p) * c))) as (ws & Eb & Hw).
  { intros [|p] Hp; [reflexivity|]. cbn [Nat.eqb]. rewrite repeat_length, Lw, <- total_off. now rewrite (shape_total b _ _ (Sh _ Hp)). }
  { cbn [Nat.eqb]. rewrite Lw. exact F. }
  rewrite Eb. cbn [bind]. eexists. split; [reflexivity|]. intros p Hp. cbv beta. rewrite (Hw p Hp). cbn [Nat.eqb].
  destruct (Sh p Hp) as (S1 & S2 & S3 & S4). unfold unpack_all.
  assert (O : off1 b (As 0) <= off2 b (As 0) /\ off2 b (As 0) <= off3 b (As 0) /\ off3 b (As 0) <= off4 b (As 0)) by (unfold off4, off3, off2; lia).
  destruct (unpack_matrix_ok b 0 (a_vecs (As 0)) (a_vecs (As p)) w S1 M1) as (V & E1 & T1); [rewrite Lw; change (0 + mat_len b (a_vecs (As 0))) with (off1 b (As 0)); lia|].
  rewrite E1. cbn [bind fst snd]. change (0 + mat_len b (a_vecs (As 0))) with (off1 b (As 0)).
  destruct (unpack_matrix_ok b (off1 b (As 0)) (a_U (As 0)) (a_U (As p)) w S2 M2) as (U & E2 & T2); [rewrite Lw; fold (off2 b (As 0)); lia|].
  rewrite E2. cbn [bind fst snd]. fold (off2 b (As 0)).
  destruct (unpack_reals_ok b (off2 b (As 0)) (a_vals (As 0)) (a_vals (As p)) w Hb S3 M3) as (v & E3 & T3); [rewrite Lw; fold (off3 b (As 0)); lia|].
  rewrite E3. cbn [bind fst snd]. fold (off3 b (As 0)).
  destruct (unpack_reals_ok b (off3 b (As 0)) (a_svals (As 0)) (a_svals (As p)) w Hb S4 M4) as (sv & E4 & T4); [rewrite Lw; fold (off4 b (As 0)); lia|].
  rewrite E4. cbn [bind fst snd]. eexists. split; [reflexivity|]. split; [|split; [|split]]; assumption.
Qed.

(** The previous vectors. *)
Variable of_nat : nat -> R. Variable to_nat : R -> nat.
Lemma keep_ok b idx n (kept : matrix) k (hs : nat -> matrix) : k <= n -> to_nat (sent (of_nat k)) = k ->
  exists f, keep_previous zero conv np c of_nat to_nat b idx n kept k hs = Some f /\
    forall p, p < np -> exists h, f p = Some (h, k) /\ took c b idx k sent kept (if p =? 0 then kept else hs p) h.
Proof.
  intros Hk Ht. unfold keep_previous. set (len := (b * n + 1) * c).
  set (z := repeat zero (c - 1)). assert (Lz : length (of_nat k :: z) = c) by (cbn [length]; unfold z; rewrite repeat_length; lia).
  assert (Q1 : b * k * c <= b * n * c) by (apply Nat.mul_le_mono_r, Nat.mul_le_mono_l; lia).
  assert (Q2 : len = b * n * c + c) by (unfold len; ring).
  assert (Q3 : k * (b * c) = b * k * c) by ring.
  assert (Q4 : (1 + b * k) * c = b * k * c + c) by ring.
  assert (Q5 : b * (n - k) * c + b * k * c = b * n * c).
  { rewrite <- Nat.mul_add_distr_r, <- Nat.mul_add_distr_l. do 2 f_equal. lia. }
  assert (Hl : c + k * (b * c) <= len) by lia.
  assert (Hl3 : (1 + b * k) * c + b * (n - k) * c = len) by lia.
  destruct (write_ok 0 (of_nat k :: z) (repeat None len)) as (w1 & E1 & L1 & H1 & K1); [rewrite Lz, repeat_length; lia|].
  rewrite repeat_length in L1. rewrite Lz in K1. rewrite E1. cbn [bind].
  destruct (write_ok c (flat c b k (fun j => kept (idx + j))) w1) as (w2 & E2 & L2 & H2 & K2); [rewrite length_flat; lia|].
  rewrite length_flat in K2. rewrite E2. cbn [bind].
  destruct (write_ok ((1 + b * k) * c) (repeat zero (b * (n - k) * c)) w2) as (w3 & E3 & L3 & H3 & K3); [rewrite repeat_length; lia|].
  rewrite repeat_length in K3. rewrite E3. cbn [bind].
  assert (N0 : nth_error w3 0 = Some (Some (of_nat k))).
  { rewrite K3 by lia. rewrite K2 by lia. apply (H1 0 (of_nat k)). reflexivity. }
  assert (F : full w3 (length w3)).
  { replace (length w3) with len by lia. intros i Hi. destruct (Nat.lt_ge_cases i c) as [A|A].
    - rewrite K3 by lia. rewrite K2 by lia. apply (holds_some w1 0 (of_nat k :: z) i H1). lia.
    - destruct (Nat.lt_ge_cases i ((1 + b * k) * c)) as [B|B].
      + rewrite K3 by lia. replace i with (c + (i - c)) by lia. apply holds_some with (flat c b k (fun j => kept (idx + j))); auto.
        rewrite length_flat. lia.
      + replace i with ((1 + b * k) * c + (i - (1 + b * k) * c)) by lia. apply holds_some with (repeat zero (b * (n - k) * c)); auto.
        rewrite repeat_length. lia. }
  destruct (bcast_ok (fun p => if p =? 0 then w3 else repeat None len)) as (ws & Eb & Hw).
  { intros [|p] Hp; [reflexivity|]. cbn [Nat.eqb]. rewrite repeat_length. lia. }
  { exact F. }
  rewrite Eb. cbn [bind]. eexists. split; [reflexivity|]. intros p Hp. cbv beta. rewrite (Hw p Hp). cbn [Nat.eqb].
  rewrite (read_sent w3 0 _ N0). cbn [bind]. rewrite Ht.
  destruct (unflat_ok b idx k c w3 kept (if p =? 0 then kept else hs p)) as (h & Eh & T).
  { intros i x E. assert (i < k * (b * c)) by (rewrite <- (length_flat b k (fun j => kept (idx + j))); apply nth_error_Some; congruence).
    rewrite K3 by lia. now apply H2. }
  { lia. }
  cbv zeta. rewrite Eh. cbn [bind]. exists h. auto.
Qed.
End Proofs.

(** ** Theorems. *)

(** When process 0 solves the projected problem, every process goes on with its
    coefficients, values and singular values, and nothing else changes; in particular any
    two processes hold the same numbers. *)
Theorem C58_projected : forall {R} (zero : R) (conv : R -> R) np c b (A : arrays) (As : nat -> arrays),
  1 <= np -> 1 <= c -> 0 < b -> (forall p, p < np -> same_shape A (As p)) ->
  exists f, solve_H zero conv np c b (inr A) As = Done f /\
    (forall p, p < np -> exists A', f p = Some A' /\
       took_all c b (if np =? 1 then fun x => x else conv) A (if p =? 0 then A else As p) A') /\
    (forall p q A1 A2, p < np -> q < np -> f p = Some A1 -> f q = Some A2 ->
       (forall V1 V2, a_vecs A1 = Some V1 -> a_vecs A2 = Some V2 -> forall j i k, j < b -> i < b -> k < c -> V1 j i k = V2 j i k) /\
       (forall V1 V2, a_U A1 = Some V1 -> a_U A2 = Some V2 -> forall j i k, j < b -> i < b -> k < c -> V1 j i k = V2 j i k) /\
       (forall v1 v2, a_vals A1 = Some v1 -> a_vals A2 = Some v2 -> forall i, i < b -> v1 i = v2 i) /\
       (forall v1 v2, a_svals A1 = Some v1 -> a_svals A2 = Some v2 -> forall i, i < b -> v1 i = v2 i)).
Proof.
  intros R zero conv np c b A As Hn Hc Hb Sh. unfold solve_H.
  destruct (brcast_ok zero conv np c Hc Hn b (fun p => if p =? 0 then A else As p) Hb) as (f & E & Hf).
  { intros p Hp. cbn [Nat.eqb]. destruct (p =? 0); [|auto]. unfold same_shape. auto. }
  rewrite E. exists f. split; [reflexivity|].
  assert (X : forall p, p < np -> exists A', f p = Some A' /\
    took_all c b (if np =? 1 then fun x => x else conv) A (if p =? 0 then A else As p) A').
  { intros p Hp. destruct (Hf p Hp) as (A' & EA & T). exists A'. split; [exact EA|].
    cbn [Nat.eqb] in T. unfold sent in T. destruct (np =? 1); exact T. }
  split; [exact X|].
  intros p q A1 A2 Hp Hq E1 E2. destruct (X p Hp) as (B1 & F1 & (T1 & T2 & T3 & T4)). destruct (X q Hq) as (B2 & F2 & (U1 & U2 & U3 & U4)).
  rewrite E1 in F1. injection F1 as <-. rewrite E2 in F2. injection F2 as <-.
  assert (Mx : forall x x1 x2 V1 V2, took_opt (took c b 0 b (if np =? 1 then fun x => x else conv)) x x1 (Some V1) ->
     took_opt (took c b 0 b (if np =? 1 then fun x => x else conv)) x x2 (Some V2) ->
     forall j i k, j < b -> i < b -> k < c -> V1 j i k = V2 j i k).
  { intros [x|] [x1|] [x2|] V1 V2; cbn [took_opt]; try tauto. intros P Q j i k Hj Hi Hk. rewrite P, Q.
    now rewrite (proj2 (Nat.leb_le 0 j)), (proj2 (Nat.ltb_lt j (0 + b))), (proj2 (Nat.ltb_lt i b)), (proj2 (Nat.ltb_lt k c)) by lia. }
  assert (Vx : forall x x1 x2 v1 v2, took_opt (took_vec b (if np =? 1 then fun x => x else conv)) x x1 (Some v1) ->
     took_opt (took_vec b (if np =? 1 then fun x => x else conv)) x x2 (Some v2) -> forall i, i < b -> v1 i = v2 i).
  { intros [x|] [x1|] [x2|] v1 v2; cbn [took_opt]; try tauto. intros P Q i Hi. rewrite P, Q.
    now rewrite (proj2 (Nat.ltb_lt i b)) by lia. }
  split; [|split; [|split]].
  - intros V1 V2 G1 G2. rewrite G1 in T1. rewrite G2 in U1. eapply Mx; eassumption.
  - intros V1 V2 G1 G2. rewrite G1 in T2. rewrite G2 in U2. eapply Mx; eassumption.
  - intros v1 v2 G1 G2. rewrite G1 in T3. rewrite G2 in U3. eapply Vx; eassumption.
  - intros v1 v2 G1 G2. rewrite G1 in T4. rewrite G2 in U4. eapply Vx; eassumption.
Qed.

(** The previous vectors kept at a restart: every process keeps the same number of them,
    the ones process 0 kept, and its other columns. *)
Theorem C58_previous : forall {R} (zero : R) (conv : R -> R) np c (of_nat : nat -> R) (to_nat : R -> nat) b idx n kept k hs,
  1 <= np -> 1 <= c -> k <= n ->
  let f := if np =? 1 then fun x => x else conv in
  to_nat (f (of_nat k)) = k ->
  exists g, keep_previous zero conv np c of_nat to_nat b idx n kept k hs = Some g /\
    forall p, p < np -> exists h, g p = Some (h, k) /\ took c b idx k f kept (if p =? 0 then kept else hs p) h.
Proof.
  intros R zero conv np c of_nat to_nat b idx n kept k hs Hn Hc Hk f Ht.
  assert (ES : forall x, sent conv np x = f x) by (intros x; unfold sent, f; destruct (np =? 1); reflexivity).
  destruct (keep_ok zero conv np c Hc Hn of_nat to_nat b idx n kept k hs Hk) as (g & E & Hg); [now rewrite ES|].
  exists g. split; [exact E|]. intros p Hp. destruct (Hg p Hp) as (h & Eh & T). exists h. split; [exact Eh|].
  intros j i kk. rewrite (T j i kk). now rewrite ES.
Qed.

(** An error of process 0 in the projected problem leaves the others waiting. *)
Theorem C58_failure_refuted : forall {R} (zero : R) (conv : R -> R) np c b e (As : nat -> arrays),
  2 <= np -> solve_H zero conv np c b (inl e) As = Waiting e /\
  ~ exists f, solve_H zero conv np c b (inl e) As = Done f \/ solve_H zero conv np c b (inl e) As = Returned e.
Proof.
  intros R zero conv np c b e As Hn. unfold solve_H. rewrite (proj2 (Nat.eqb_neq np 1)) by lia.
  split; [reflexivity|]. intros (f & [E|E]); discriminate.
Qed.

(** The extreme values seen bound every Ritz value of every call and are among them or
    what they were at first. *)
Theorem C58_extremes : forall {V} (leb : V -> V -> bool) (mag : V -> V),
  (forall a b, leb a b = true \/ leb b a = true) -> (forall a b c, leb a b = true -> leb b c = true -> leb a c = true) ->
  forall (calls : list (list V)) s,
  let s' := fold_left (see_all leb mag) calls s in
  (forall v, In v (concat calls) -> leb (s_min s') v = true /\ leb v (s_max s') = true /\ leb (mag v) (s_large s') = true) /\
  leb (s_min s') (s_min s) = true /\ leb (s_max s) (s_max s') = true /\ leb (s_large s) (s_large s') = true /\
  (s_min s' = s_min s \/ In (s_min s') (concat calls)) /\ (s_max s' = s_max s \/ In (s_max s') (concat calls)) /\
  (s_large s' = s_large s \/ In (s_large s') (map mag (concat calls))).
Proof.
  intros V leb mag Tot Tr calls s s'.
  assert (E : s' = fold_left (see leb mag) (concat calls) s).
  { unfold s', see_all. clear s'. revert s. induction calls as [|l t IH]; intros s; [reflexivity|]. cbn [fold_left concat]. rewrite fold_left_app. apply IH. }
  rewrite E. clear E s'. generalize (concat calls). clear calls. intros l. revert s.
  assert (Rf : forall a, leb a a = true) by (intros a; destruct (Tot a a); auto).
  assert (mn : forall a b, leb (vmin leb a b) a = true /\ leb (vmin leb a b) b = true /\ (vmin leb a b = a \/ vmin leb a b = b)).
  { intros a b. unfold vmin. destruct (leb a b) eqn:Q; auto. destruct (Tot a b); [congruence|auto]. }
  assert (mxx : forall a b, leb a (vmax leb a b) = true /\ leb b (vmax leb a b) = true /\ (vmax leb a b = a \/ vmax leb a b = b)).
  { intros a b. unfold vmax. destruct (leb a b) eqn:Q; auto. destruct (Tot a b); [congruence|auto]. }
  induction l as [|v l IH]; intros s; cbn [fold_left].
  { repeat split; auto; contradiction. }
  destruct (IH (see leb mag s v)) as (A & B & C & D & F & G & H). cbn [see s_min s_max s_large] in *.
  destruct (mn (s_min s) v) as (N1 & N2 & N3). destruct (mxx (s_max s) v) as (X1 & X2 & X3). destruct (mxx (s_large s) (mag v)) as (Y1 & Y2 & Y3).
  split. { intros u [->|Hu]; [|apply A; exact Hu]. repeat split; [eapply Tr; [exact B|exact N2]|eapply Tr; [exact X2|exact C]|eapply Tr; [exact Y2|exact D]]. }
  split; [eapply Tr; eassumption|]. split; [eapply Tr; eassumption|]. split; [eapply Tr; eassumption|].
  split. { destruct F as [F|F]; [|right; right; exact F]. rewrite F. destruct N3 as [->| ->]; [auto|right; left; reflexivity]. }
  split. { destruct G as [G|G]; [|right; right; exact G]. rewrite G. destruct X3 as [->| ->]; [auto|right; left; reflexivity]. }
  destruct H as [H|H]; [|right; right; exact H]. rewrite H. destruct Y3 as [->| ->]; [auto|right; left; reflexivity].
Qed.

(** Cases: complex arithmetic (c = 2), a basis of three vectors, so that the last SCALAR of
    the values is half used; three processes. *)
Definition exA : @arrays nat := Arr (Some (fun j i k => 100 + 10 * j + 2 * i + k)) None (Some (fun i => 7 + i)) (Some (fun i => 50 + i)).
Definition exAs (p : nat) : @arrays nat := Arr (Some (fun _ _ _ => p)) None (Some (fun _ => p)) (Some (fun _ => p)).
Example ex_projected_hyps : forall p, p < 3 -> same_shape exA (exAs p).
Proof. intros p _. unfold same_shape. auto. Qed.
Example ex_projected : match solve_H 0 (fun x => x) 3 2 3 (inr exA) exAs with
  | Done f => match f 2 with
      | Some A' => match a_vecs A', a_vals A', a_svals A' with
          | Some V, Some v, Some sv => (V 2 1 1, V 3 0 0, v 2, v 3, sv 0, sv 2) = (123, 2, 9, 2, 50, 52)
          | _, _, _ => False end
      | None => False end
  | _ => False end.
Proof. vm_compute. reflexivity. Qed.
Example ex_previous : match keep_previous 0 (fun x => x) 2 2 (fun n => n) (fun n => n) 3 1 2 (fun j i k => 100 + 10 * j + 2 * i + k) 1 (fun p _ _ _ => p) with
  | Some g => match g 1 with Some (h, k) => (k, h 1 2 1, h 0 0 0, h 2 0 0) = (1, 115, 1, 1) | None => False end
  | None => False end.
Proof. vm_compute. reflexivity. Qed.
Example ex_extremes : fold_left (see_all Nat.leb (fun x => x)) [[5; 3]; [9; 4]] (Seen 6 6 0) = Seen 3 9 9.
Proof. reflexivity. Qed.
