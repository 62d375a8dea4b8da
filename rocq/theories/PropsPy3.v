(** C64: the Python function [svds]; C63 and C64: the callbacks. *)
From Coq Require Import ZArith List Bool Lia Arith.
From Verif Require Import Base SvdsModel SvdsProofs SvdsCtlModel PyModel.
Import ListNotations.
Open Scope nat_scope.

(** A matrix of [c] columns of [r] elements. *)
Definition matrix_of {K} (r c : nat) (x : list (list K)) : Prop :=
  length x = c /\ forall y, In y x -> length y = r.

Lemma matrix_size : forall K r c (x : list (list K)), matrix_of r c x -> length (concat x) = r * c.
Proof.
  intros K r c x [L H]. subst c. induction x as [|y x IH]; cbn; [lia|].
  rewrite app_length, H by (cbn; auto). rewrite IH by (intros; apply H; cbn; auto). lia.
Qed.
Lemma matrix_firstn : forall K r c d (x : list (list K)), matrix_of r c x -> d <= c -> matrix_of r d (firstn d x).
Proof.
  intros K r c d x [L H] D. split; [rewrite firstn_length; lia|]. intros y I. apply H.
  rewrite <- (firstn_skipn d x). apply in_or_app. auto.
Qed.

Section Svds.
Context {V K : Type}.
Variables (vzero : V) (kconj : K -> K).

(** The arrays given to the solver hold the constraints and the guesses as documented for
    the C solver: left constraints, left guesses, right constraints, right guesses. *)
Definition documented (m n noc init : nat) (uc u0 vc v0 : list (list K)) (mem : list K) : Prop :=
  matrix_of m noc uc /\ matrix_of m init u0 /\ matrix_of n noc vc /\ matrix_of n init v0 /\
  exists rest, mem = concat uc ++ concat u0 ++ concat vc ++ concat v0 ++ rest.

Lemma rows_are_spec : forall r (x : list (list K)), rows_are r (Some x) = true -> matrix_of r (length x) x.
Proof.
  intros r x H. split; auto. intros y I. cbn in H. rewrite forallb_forall in H. apply H in I. apply Nat.eqb_eq in I. auto.
Qed.

Lemma check_pair_both : forall m n (u v : option (list (list K))) u' v', check_pair m n u v = Some (Some (u', v')) ->
  u = Some u' /\ v = Some v' /\ length u' = length v' /\ matrix_of m (length u') u' /\ matrix_of n (length u') v'.
Proof.
  intros m n u v u' v'. unfold check_pair.
  destruct (negb (rows_are m u && rows_are n v)) eqn:E; [discriminate|].
  apply negb_false_iff, andb_true_iff in E. destruct E as [E1 E2].
  destruct u as [u|], v as [v|]; try discriminate.
  destruct (Nat.eqb_spec (length u) (length v)) as [L|]; [|discriminate].
  intros X. injection X as <- <-. repeat split; auto.
  - apply (rows_are_spec _ _ E1).
  - apply (rows_are_spec _ _ E2).
Qed.

Lemma split5 : forall (mem : list K) a b c d, a + b + c + d <= length mem ->
  exists A B C D R, mem = A ++ B ++ C ++ D ++ R /\ length A = a /\ length B = b /\ length C = c /\ length D = d.
Proof.
  intros mem a b c d H.
  exists (firstn a mem), (firstn b (skipn a mem)), (firstn c (skipn b (skipn a mem))),
    (firstn d (skipn c (skipn b (skipn a mem)))), (skipn d (skipn c (skipn b (skipn a mem)))).
  rewrite !firstn_skipn. repeat rewrite ?firstn_length, ?skipn_length. repeat split; lia.
Qed.

(** The memory of np.empty, for [noc] constraints. *)
Definition enough (a : svds_args K) (noc : nat) (mem : list K) : Prop :=
  length mem = (s_m a + s_n a) * (noc + Z.to_nat (s_k a)).

Lemma k_fine : forall a : svds_args K, (1 <= s_k a <= Z.of_nat (Nat.min (s_n a) (s_m a)))%Z ->
  ((s_k a <=? 0)%Z || (s_k a >? Z.of_nat (Nat.min (s_n a) (s_m a)))%Z) = false.
Proof.
  intros a H. apply orb_false_iff. rewrite Z.gtb_ltb. split; [apply Z.leb_gt|apply Z.ltb_ge]; lia.
Qed.

(** Guesses without constraints, or with at most as many constraints as guesses. *)
Theorem C64_guesses : forall a u0 v0 mem,
  (1 <= s_k a <= Z.of_nat (Nat.min (s_n a) (s_m a)))%Z ->
  s_orthou0 a = None -> s_orthov0 a = None -> s_u0 a = Some u0 -> s_v0 a = Some v0 ->
  length u0 = length v0 -> matrix_of (s_m a) (length u0) u0 -> matrix_of (s_n a) (length u0) v0 ->
  enough a 0 mem ->
  let init := Nat.min (length u0) (Z.to_nat (s_k a)) in
  exists mem', svds_arrays a mem = Some (0, init, mem') /\ length mem' = length mem /\
    documented (s_m a) (s_n a) 0 init [] (firstn init u0) [] (firstn init v0) mem'.
Proof.
  intros a u0 v0 mem HK O1 O2 G1 G2 L M1 M2 EN init.
  assert (I : init <= length u0 /\ init <= Z.to_nat (s_k a)) by (subst init; lia).
  pose proof (matrix_firstn _ _ _ init _ M1 ltac:(lia)) as F1.
  pose proof (matrix_firstn _ _ _ init _ M2 ltac:(lia)) as F2.
  unfold svds_arrays. rewrite (k_fine _ HK).
  rewrite O1, O2, G1, G2. cbn [check_pair rows_are andb negb bind].
  assert (R : forall r (x : list (list K)) c, matrix_of r c x -> forallb (fun c => length c =? r) x = true).
  { intros r x c [_ H]. apply forallb_forall. intros y Y. apply Nat.eqb_eq. auto. }
  unfold check_pair. cbn [rows_are]. rewrite (R _ _ _ M1), (R _ _ _ M2). cbn [andb negb]. rewrite L, Nat.eqb_refl. cbn [bind].
  fold init. rewrite !Nat.mul_0_r, !Nat.add_0_l, Nat.add_0_r.
  unfold enough in EN. rewrite Nat.add_0_l in EN.
  destruct (split5 mem 0 (s_m a * init) 0 (s_n a * init)) as (A & B & C & D & R5 & -> & LA & LB & LC & LD).
  { rewrite EN. nia. }
  destruct A; [|discriminate]. destruct C; [|discriminate]. cbn [app] in *.
  rewrite (write_at_eq _ (B ++ D ++ R5) [] B (concat (firstn init u0)) (D ++ R5)); auto;
    [|rewrite (matrix_size _ _ _ _ F1); auto].
  cbn [bind app].
  rewrite (write_at_eq _ (concat (firstn init u0) ++ D ++ R5) (concat (firstn init u0)) D (concat (firstn init v0)) R5); auto;
    [|rewrite (matrix_size _ _ _ _ F1); auto|rewrite (matrix_size _ _ _ _ F2); auto].
  cbn [bind]. eexists. split; [reflexivity|]. split.
  - rewrite !app_length, (matrix_size _ _ _ _ F1), (matrix_size _ _ _ _ F2). lia.
  - unfold documented. repeat split; try apply F1; try apply F2; try (intros y []).
    exists R5. reflexivity.
Qed.

Theorem C64_constraints_partial : forall a uc vc u0 v0 mem,
  (1 <= s_k a <= Z.of_nat (Nat.min (s_n a) (s_m a)))%Z ->
  s_orthou0 a = Some uc -> s_orthov0 a = Some vc -> s_u0 a = Some u0 -> s_v0 a = Some v0 ->
  length uc = length vc -> matrix_of (s_m a) (length uc) uc -> matrix_of (s_n a) (length uc) vc ->
  length u0 = length v0 -> matrix_of (s_m a) (length u0) u0 -> matrix_of (s_n a) (length u0) v0 ->
  let init := Nat.min (length u0) (Z.to_nat (s_k a)) in
  length uc <= Nat.min (s_m a) (s_n a) -> length uc <= init -> enough a (length uc) mem ->
  exists mem', svds_arrays a mem = Some (length uc, init, mem') /\ length mem' = length mem /\
    documented (s_m a) (s_n a) (length uc) init uc (firstn init u0) vc (firstn init v0) mem'.
Proof.
  intros a uc vc u0 v0 mem HK O1 O2 G1 G2 LC MC1 MC2 L M1 M2 init CM CI EN.
  assert (I : init <= length u0 /\ init <= Z.to_nat (s_k a)) by (subst init; lia).
  pose proof (matrix_firstn _ _ _ init _ M1 ltac:(lia)) as F1.
  pose proof (matrix_firstn _ _ _ init _ M2 ltac:(lia)) as F2.
  unfold svds_arrays. rewrite (k_fine _ HK).
  rewrite O1, O2, G1, G2.
  assert (R : forall r (x : list (list K)) c, matrix_of r c x -> forallb (fun c => length c =? r) x = true).
  { intros r x c [_ H]. apply forallb_forall. intros y Y. apply Nat.eqb_eq. auto. }
  unfold check_pair. cbn [rows_are].
  rewrite (R _ _ _ M1), (R _ _ _ M2), (R _ _ _ MC1), (R _ _ _ MC2). cbn [andb negb].
  rewrite L, LC, !Nat.eqb_refl. cbn [bind]. fold init.
  rewrite (Nat.min_l (length uc)) by lia.
  unfold enough in EN. set (noc := length uc) in *. set (m := s_m a) in *. set (n := s_n a) in *.
  destruct (split5 mem (m * noc) (m * init) (n * noc) (n * init)) as (A & B & C & D & R5 & -> & LA & LB & LC5 & LD).
  { rewrite EN. nia. }
  rewrite (write_at_eq _ (A ++ B ++ C ++ D ++ R5) A B (concat (firstn init u0)) (C ++ D ++ R5)); auto;
    [|rewrite (matrix_size _ _ _ _ F1); auto].
  cbn [bind].
  rewrite (write_at_eq _ (A ++ concat (firstn init u0) ++ C ++ D ++ R5) (A ++ concat (firstn init u0) ++ C) D (concat (firstn init v0)) R5);
    [|rewrite <- !app_assoc; reflexivity|rewrite !app_length, (matrix_size _ _ _ _ F1); lia|rewrite (matrix_size _ _ _ _ F2); auto].
  cbn [bind]. rewrite <- !app_assoc.
  rewrite (write_at_eq _ (A ++ concat (firstn init u0) ++ C ++ concat (firstn init v0) ++ R5) [] A (concat (firstn noc uc))
    (concat (firstn init u0) ++ C ++ concat (firstn init v0) ++ R5)); auto;
    [|rewrite (firstn_all2 uc) by lia; rewrite (matrix_size _ _ _ _ MC1); auto].
  cbn [bind app]. rewrite (firstn_all2 uc) by lia. rewrite (firstn_all2 vc) by lia.
  unfold assign_columns. rewrite <- LC, Nat.eqb_refl. cbn [bind].
  rewrite (write_at_eq _ (concat uc ++ concat (firstn init u0) ++ C ++ concat (firstn init v0) ++ R5)
     (concat uc ++ concat (firstn init u0)) C (concat vc) (concat (firstn init v0) ++ R5));
    [|rewrite <- !app_assoc; reflexivity
     |rewrite !app_length, (matrix_size _ _ _ _ F1), (matrix_size _ _ _ _ MC1); fold noc; lia
     |rewrite (matrix_size _ _ _ _ MC2); auto].
  cbn [bind]. eexists. split; [reflexivity|]. split.
  - rewrite !app_length, (matrix_size _ _ _ _ F1), (matrix_size _ _ _ _ F2), (matrix_size _ _ _ _ MC1), (matrix_size _ _ _ _ MC2). lia.
  - unfold documented. split; [auto|]. split; [auto|]. split; [auto|]. split; [auto|].
    exists R5. rewrite <- !app_assoc. reflexivity.
Qed.

(** Constraints without guesses are refused, whatever they are. *)
Theorem C64_constraints_alone_refuted : forall (a : svds_args K) uc vc mem,
  s_orthou0 a = Some uc -> s_orthov0 a = Some vc -> uc <> [] -> s_u0 a = None -> s_v0 a = None ->
  0 < s_m a -> 0 < s_n a -> svds_arrays a mem = None.
Proof.
  intros a uc vc mem O1 O2 NE G1 G2 P1 P2. unfold svds_arrays.
  destruct ((s_k a <=? 0) || (s_k a >? Z.of_nat (Nat.min (s_n a) (s_m a))))%Z; [reflexivity|].
  destruct (check_pair (s_m a) (s_n a) (s_orthou0 a) (s_orthov0 a)) as [[[u v]|]|] eqn:E; cbn [bind]; auto.
  - apply check_pair_both in E. destruct E as (E1 & E2 & _). rewrite O1 in E1. injection E1 as <-.
    rewrite G1, G2. cbn [check_pair rows_are andb negb bind].
    destruct (write_at mem 0 _); cbn [bind]; auto.
    unfold assign_columns. cbn [firstn length].
    destruct (Nat.eqb_spec 0 (Nat.min (length uc) (Nat.min (s_m a) (s_n a)))) as [X|]; auto.
    destruct uc; [congruence|]. cbn [length] in X. lia.
  - exfalso. rewrite O1, O2 in E. unfold check_pair in E. destruct (negb _); [discriminate|].
    destruct (length uc =? length vc); discriminate.
Qed.

(** With one guess and more constraints, every right constraint is the first one. *)
Theorem C64_constraints_repeated_refuted : forall (a : svds_args K) uc v1 vt u0 v0 mem,
  (1 <= s_k a <= Z.of_nat (Nat.min (s_n a) (s_m a)))%Z ->
  s_orthou0 a = Some uc -> s_orthov0 a = Some (v1 :: vt) -> s_u0 a = Some [u0] -> s_v0 a = Some [v0] ->
  length uc = S (length vt) -> matrix_of (s_m a) (length uc) uc -> matrix_of (s_n a) (length uc) (v1 :: vt) ->
  length u0 = s_m a -> length v0 = s_n a ->
  2 <= length uc <= Nat.min (s_m a) (s_n a) -> enough a (length uc) mem ->
  exists mem', svds_arrays a mem = Some (length uc, 1, mem') /\
    documented (s_m a) (s_n a) (length uc) 1 uc [u0] (repeat v1 (length uc)) [v0] mem'.
Proof.
  intros a uc v1 vt u0 v0 mem HK O1 O2 G1 G2 LC MC1 MC2 L1 L2 CM EN.
  unfold svds_arrays. rewrite (k_fine _ HK).
  rewrite O1, O2, G1, G2.
  assert (R : forall r (x : list (list K)) c, matrix_of r c x -> forallb (fun c => length c =? r) x = true).
  { intros r x c [_ H]. apply forallb_forall. intros y Y. apply Nat.eqb_eq. auto. }
  unfold check_pair. cbn [rows_are].
  rewrite (R _ _ _ MC1), (R _ _ _ MC2). cbn [forallb length]. rewrite L1, L2, LC, !Nat.eqb_refl. cbn [andb negb bind Nat.eqb].
  rewrite (Nat.min_l (length uc)) by lia.
  replace (Nat.min (length [u0]) (Z.to_nat (s_k a))) with 1 by (cbn [length]; lia).
  rewrite <- LC. change (length [u0]) with 1.
  unfold enough in EN. set (noc := length uc) in *. set (m := s_m a) in *. set (n := s_n a) in *.
  change (firstn 1 [u0]) with [u0]. change (firstn 1 [v0]) with [v0]. change (firstn 1 (v1 :: vt)) with [v1]. cbn [concat].
  rewrite ?app_nil_r.
  destruct (split5 mem (m * noc) m (n * noc) n) as (A & B & C & D & R5 & -> & LA & LB & LC5 & LD).
  { rewrite EN. nia. }
  rewrite (write_at_eq _ (A ++ B ++ C ++ D ++ R5) A B u0 (C ++ D ++ R5)); auto; [|lia].
  cbn [bind].
  rewrite (write_at_eq _ (A ++ u0 ++ C ++ D ++ R5) (A ++ u0 ++ C) D v0 R5);
    [|rewrite <- !app_assoc; reflexivity|rewrite !app_length; lia|lia].
  cbn [bind]. rewrite <- !app_assoc.
  rewrite (write_at_eq _ (A ++ u0 ++ C ++ v0 ++ R5) [] A (concat (firstn noc uc)) (u0 ++ C ++ v0 ++ R5)); auto;
    [|rewrite (firstn_all2 uc) by lia; rewrite (matrix_size _ _ _ _ MC1); auto].
  cbn [bind app]. rewrite (firstn_all2 uc) by lia.
  unfold assign_columns. change (length [v1]) with 1. replace (1 =? noc) with false by (symmetry; apply Nat.eqb_neq; lia). cbn [bind].
  assert (MR : matrix_of n noc (repeat v1 noc)).
  { split; [apply repeat_length|]. intros y Y. apply repeat_spec in Y. subst. apply MC2. cbn; auto. }
  rewrite (write_at_eq _ (concat uc ++ u0 ++ C ++ v0 ++ R5) (concat uc ++ u0) C (concat (repeat v1 noc)) (v0 ++ R5));
    [|rewrite <- !app_assoc; reflexivity
     |rewrite !app_length, (matrix_size _ _ _ _ MC1); fold noc; lia
     |rewrite (matrix_size _ _ _ _ MR); auto].
  cbn [bind]. eexists. split; [reflexivity|].
  unfold documented. split; [auto|]. split; [split; [auto|intros y [<-|[]]; auto]|]. split; [auto|].
  split; [split; [auto|intros y [<-|[]]; auto]|].
  exists R5. cbn [concat]. rewrite !app_nil_r, <- !app_assoc. reflexivity.
Qed.

(** Only one of the two matrices of guesses is refused; the documentation says that the
    other is computed. *)
Theorem C64_one_side_refuted : forall (a : svds_args K) x mem,
  (s_u0 a = Some x /\ s_v0 a = None) \/ (s_u0 a = None /\ s_v0 a = Some x) -> svds_arrays a mem = None.
Proof.
  intros a x mem H. unfold svds_arrays.
  destruct ((s_k a <=? 0) || (s_k a >? Z.of_nat (Nat.min (s_n a) (s_m a))))%Z; [reflexivity|].
  destruct (check_pair (s_m a) (s_n a) (s_orthou0 a) (s_orthov0 a)); cbn [bind]; auto.
  assert (check_pair (s_m a) (s_n a) (s_u0 a) (s_v0 a) = None) as ->; [|reflexivity].
  unfold check_pair. destruct H as [[-> ->]|[-> ->]]; destruct (negb _); reflexivity.
Qed.

Lemma columns_concat : forall r (x : list (list K)) rest, (forall y, In y x -> length y = r) ->
  columns_of r (length x) (concat x ++ rest) = x.
Proof.
  intros r x rest H. induction x as [|y x IH]; cbn; auto.
  assert (Y : length y = r) by (apply H; cbn; auto). subst r.
  rewrite <- app_assoc, firstn_app, firstn_all, Nat.sub_diag, skipn_app, skipn_all, Nat.sub_diag. cbn [firstn skipn app].
  rewrite app_nil_r, IH by (intros; apply H; cbn; auto). reflexivity.
Qed.
Lemma slice_mid : forall X (a b c : list X), slice (length a) (length a + length b) (a ++ b ++ c) = b.
Proof.
  intros. unfold slice. rewrite skipn_app, skipn_all, Nat.sub_diag. cbn [skipn app].
  replace (length a + length b - length a) with (length b) by lia.
  rewrite firstn_app, firstn_all, Nat.sub_diag. cbn. apply app_nil_r.
Qed.

(** After a success: the values, the left vectors, and the right vectors conjugated as the
    rows of the third matrix, from where the C solver documents to leave them. *)
Theorem C64_returned : forall solve (a : svds_args K) noc init mem mem0 uc u vc v svals sv,
  svds_arrays a mem0 = Some (noc, init, mem) ->
  solve noc init mem = {| sl_err := 0; sl_init := length u; sl_noc := noc; sl_svals := svals; sl_svecs := sv; sl_exception := false |} ->
  documented (s_m a) (s_n a) noc (length u) uc u vc v sv -> length u <= length svals ->
  exists s, svds kconj solve a mem0
    = SReturned s (if s_return_singular_vectors a then Some (u, map (map kconj) v) else None) /\
    length s = length u /\ forall i, i < length u -> nth_error s i = nth_error (svals : list V) i.
Proof.
  intros solve a noc init mem mem0 uc u vc v svals sv A S (M1 & M2 & M3 & M4 & rest & E) L.
  exists (firstn (length u) svals). split; [|split].
  - unfold svds. rewrite A, S. unfold svds_finish. cbn [sl_err sl_exception sl_init sl_noc sl_svals sl_svecs Z.eqb negb andb].
    cbv zeta. unfold slice at 1. rewrite Nat.sub_0_r. cbn [skipn]. f_equal.
    destruct (s_return_singular_vectors a); [|reflexivity]. f_equal. rewrite E.
    pose proof (matrix_size _ _ _ _ M1) as S1. pose proof (matrix_size _ _ _ _ M2) as S2.
    pose proof (matrix_size _ _ _ _ M3) as S3. pose proof (matrix_size _ _ _ _ M4) as S4.
    f_equal.
    + replace (s_m a * noc) with (length (concat uc)) by auto.
      replace (s_m a * (noc + length u)) with (length (concat uc) + length (concat u)) by (rewrite S1, S2; lia).
      rewrite slice_mid. rewrite <- (app_nil_r (concat u)). apply columns_concat. apply M2.
    + f_equal. destruct M4 as [LV MV].
      replace (s_m a * (noc + length u) + s_n a * noc) with (length (concat uc ++ concat u ++ concat vc))
        by (rewrite !app_length, S1, S2, S3; lia).
      replace ((s_m a + s_n a) * (noc + length u)) with (length (concat uc ++ concat u ++ concat vc) + length (concat v))
        by (rewrite !app_length, S1, S2, S3, S4; lia).
      replace (concat uc ++ concat u ++ concat vc ++ concat v ++ rest) with ((concat uc ++ concat u ++ concat vc) ++ concat v ++ rest)
        by (rewrite <- !app_assoc; reflexivity).
      rewrite slice_mid. rewrite <- (app_nil_r (concat v)), <- LV. apply columns_concat. auto.
  - rewrite firstn_length. lia.
  - intros i I. rewrite <- (firstn_skipn (length u) svals) at 2. rewrite nth_error_app1; auto. rewrite firstn_length. lia.
Qed.

(** An exception of a function of the user is raised with the code of the solver. *)
Theorem C64_raised : forall solve (a : svds_args K) noc init mem mem0, svds_arrays a mem0 = Some (noc, init, mem) ->
  sl_err (solve noc init mem) <> 0%Z -> sl_exception (V:=V) (solve noc init mem) = true ->
  svds kconj solve a mem0 = PrimmeSvdsError (sl_err (solve noc init mem)).
Proof.
  intros solve a noc init mem mem0 A E X. unfold svds. rewrite A. unfold svds_finish. rewrite X.
  apply Z.eqb_neq in E. rewrite E. reflexivity.
Qed.

(** raise_for_unconverged: triplets that did not converge never raise.  The C solver
    (SvdsCtlModel) reports them with -103 or -203, and svds looks for -3. *)
Theorem C64_unconverged_unraised_refuted :
  forall (root : V -> V) over r2 accept args noc0 init0 solve1 solve2 o solve (a : svds_args K) noc init mem mem0,
  (forall rq, (code (solve1 rq) <= 0)%Z) -> (forall rq, (code (solve2 rq) <= 0)%Z) ->
  SvdsCtlModel.wrapper root over r2 accept args noc0 init0 solve1 solve2 = Some o ->
  svds_arrays a mem0 = Some (noc, init, mem) ->
  sl_err (solve noc init mem) = SvdsCtlModel.ret o -> sl_exception (solve noc init mem) = false ->
  exists s uv, svds (V:=V) kconj solve a mem0 = SReturned s uv.
Proof.
  intros root over r2 accept args noc0 init0 solve1 solve2 o solve a noc init mem mem0 N1 N2 W A E X.
  assert (R : SvdsCtlModel.ret o <> (-3)%Z).
  { unfold wrapper in W. destruct (negb _ && negb _ && negb _) in W; [injection W as <-; discriminate|].
    destruct (check_input (default_method (sequential args)) =? 0)%Z eqn:C; cbn [negb] in W.
    - destruct (negb (is_op _ _) && _) in W.
      + destruct (stage2 _ _ _ _ _ _) as [o2|] eqn:ST in W; cbn [bind] in W; [|discriminate].
        injection W as <-. cbn [SvdsCtlModel.ret]. unfold stage2 in ST.
        destruct (after_stage1 _ _ _ _) in ST; [discriminate|].
        destruct (carry _ _ _ _) as [[[? ?] ?] ?] in ST. injection ST as <-. cbn [SvdsCtlModel.ret].
        match goal with |- context [solve2 ?r] => pose proof (N2 r); destruct (Z.eqb_spec (code (solve2 r)) 0) end; lia.
      + injection W as <-. cbn [SvdsCtlModel.ret].
        match goal with |- context [solve1 ?r] => pose proof (N1 r); destruct (Z.eqb_spec (code (solve1 r)) 0) end; lia.
    - injection W as <-. cbn [SvdsCtlModel.ret]. unfold check_input.
      repeat match goal with |- context [if ?c then _ else _] => destruct c; [discriminate|] end. discriminate. }
  unfold svds. rewrite A. unfold svds_finish. rewrite X, andb_false_r, E.
  apply Z.eqb_neq in R. rewrite R. cbn [andb]. eauto.
Qed.
End Svds.

(** maxiter is documented as the maximum number of products: with blocks of four or more
    twice as many are allowed, with blocks of one half of them. *)
Theorem C64_maxiter_refuted : forall maxiter b, (0 < maxiter)%Z ->
  ((4 <= b)%Z -> (2 * maxiter <= svds_maxMatvecs maxiter b)%Z) /\
  ((0 <= b <= 1)%Z -> (2 * svds_maxMatvecs maxiter b <= maxiter)%Z).
Proof.
  intros maxiter b P. unfold svds_maxMatvecs. split; intros B.
  - replace (b =? 0)%Z with false by lia. rewrite Z.quot_div_nonneg by nia.
    apply Z.div_le_lower_bound; nia.
  - replace (if (b =? 0)%Z then 1%Z else b) with 1%Z by (destruct (Z.eqb_spec b 0); lia).
    rewrite Z.quot_div_nonneg by lia. pose proof (Z.mul_div_le (maxiter * 1) 2). lia.
Qed.

Section Callbacks.
Context {K : Type}.

Lemma concat_nth : forall r (f : nat -> nat -> K) b s i j, i < r -> j < b ->
  nth_error (concat (map (fun j => map (f j) (seq 0 r)) (seq s b))) (j * r + i) = Some (f (s + j) i).
Proof.
  intros r f b. induction b as [|b IH]; intros s i j I J; [lia|].
  cbn [seq map concat]. destruct j as [|j].
  - rewrite nth_error_app1 by (rewrite map_length, seq_length; lia). cbn [Nat.mul Nat.add].
    rewrite nth_error_map, (nth_error_nth' _ 0) by (rewrite seq_length; lia).
    rewrite seq_nth by lia. cbn. rewrite Nat.add_0_r. reflexivity.
  - rewrite nth_error_app2 by (rewrite map_length, seq_length; cbn; lia).
    rewrite map_length, seq_length. replace (S j * r + i - r) with (j * r + i) by (cbn; lia).
    rewrite IH by lia. f_equal. f_equal. lia.
Qed.

(** The function of the user sees the [n] rows of the [b] vectors of the solver, and what
    it returns is stored there, element by element and whatever its order in memory;
    nothing else is changed. *)
Theorem C63_matvec : forall (f : ndarray K -> ndarray K) n m b x ldx y ldy y',
  n <= ldx -> m <= ldy -> 0 < ldy ->
  matvec_numpy f n m b x ldx y ldy = Some y' ->
  exists z, nd_rows z = n /\ nd_cols z = b /\
    (forall i j, i < n -> j < b -> item z i j = Some (x (ldx * j + i))) /\
    (forall i j, i < m -> j < b -> y' (ldy * j + i) = item (f z) i j) /\
    (forall q, (forall i j, i < m -> j < b -> q <> ldy * j + i) -> y' q = y q).
Proof.
  intros f n m b x ldx y ldy y' H1 H2 P. unfold matvec_numpy, store.
  destruct ((nd_rows _ =? m) && (nd_cols _ =? b)) eqn:E; [|discriminate].
  intros X. injection X as <-. exists (view n b x ldx). split; [reflexivity|]. split; [reflexivity|].
  split; [|split].
  - intros i j I J. unfold item, view. cbn [nd_byrows nd_rows nd_data].
    apply (concat_nth n (fun j i => x (ldx * j + i)) b 0 i j I J).
  - intros i j I J.
    assert (Q : (ldy * j + i) mod ldy = i /\ (ldy * j + i) / ldy = j).
    { replace (ldy * j + i) with (i + j * ldy) by lia. rewrite Nat.mod_add, Nat.mod_small by lia.
      rewrite Nat.div_add, Nat.div_small by lia. lia. }
    destruct Q as [-> ->]. rewrite (proj2 (Nat.ltb_lt i m) I), (proj2 (Nat.ltb_lt j b) J). reflexivity.
  - intros q N. destruct (Nat.ltb_spec (q mod ldy) m); destruct (Nat.ltb_spec (q / ldy) b); cbn [andb]; auto.
    exfalso. apply (N (q mod ldy) (q / ldy)); auto. rewrite (Nat.div_mod q ldy) at 1 by lia. reflexivity.
Qed.

(** The preconditioner of svds: the same, if it returns its vectors by columns and the
    leading dimensions are equal. *)
Theorem C64_precond_partial : forall (f : ndarray K -> ndarray K) n b x ld y y',
  n <= ld -> 0 < ld ->
  (forall z, nd_byrows (f z) = false /\ nd_rows (f z) = nd_rows z /\ nd_cols (f z) = nd_cols z) ->
  svds_precond f n b x ld y ld = Some y' -> matvec_numpy f n n b x ld y ld = Some y'.
Proof.
  intros f n b x ld y y' H P F. unfold svds_precond, matvec_numpy, as_columns.
  destruct (n * b <=? length _); cbn [bind]; [|discriminate].
  destruct (F (view n b x ld)) as (F1 & F2 & F3). unfold store. cbn [nd_rows nd_cols]. rewrite F2, F3. cbn [view nd_rows nd_cols].
  rewrite !Nat.eqb_refl. cbn [andb]. intros X. injection X as <-.
  f_equal. unfold item. cbn [nd_byrows nd_rows nd_cols nd_data]. rewrite F1, F2. reflexivity.
Qed.

(** If it returns them by rows, the usual order of numpy, elements are exchanged: with two
    vectors of two elements, the second of the first vector and the first of the second. *)
Theorem C64_precond_order_refuted : forall (p00 p10 p01 p11 : K) x y,
  let z := {| nd_rows := 2; nd_cols := 2; nd_byrows := true; nd_data := [p00; p01; p10; p11] |} in
  item z 1 0 = Some p10 /\ item z 0 1 = Some p01 /\
  exists y', svds_precond (fun _ => z) 2 2 x 2 y 2 = Some y' /\ y' 1 = Some p01 /\ y' 2 = Some p10.
Proof. intros. split; [reflexivity|]. split; [reflexivity|]. eexists. split; [reflexivity|]. split; reflexivity. Qed.
End Callbacks.

(** A matrix of 2 by 3, two constraints, two guesses for two triplets. *)
Definition svds_case : svds_args Z :=
  {| s_m := 2; s_n := 3; s_k := 2; s_u0 := Some [[1;2]; [3;4]]%Z; s_v0 := Some [[5;6;7]; [8;9;10]]%Z;
     s_orthou0 := Some [[11;12]; [13;14]]%Z; s_orthov0 := Some [[15;16;17]; [18;19;20]]%Z;
     s_raise_for_unconverged := true; s_return_singular_vectors := true |}.
Example C64_case : svds_arrays svds_case (repeat 0%Z 20) =
  Some (2, 2, [11;12;13;14; 1;2;3;4; 15;16;17;18;19;20; 5;6;7;8;9;10]%Z).
Proof. reflexivity. Qed.
Example C64_repeated_case : svds_arrays
  {| s_m := 2; s_n := 3; s_k := 2; s_u0 := Some [[1;2]]%Z; s_v0 := Some [[5;6;7]]%Z;
     s_orthou0 := Some [[11;12]; [13;14]]%Z; s_orthov0 := Some [[15;16;17]; [18;19;20]]%Z;
     s_raise_for_unconverged := true; s_return_singular_vectors := true |} (repeat 0%Z 20) =
  Some (2, 1, [11;12;13;14; 1;2; 15;16;17;15;16;17; 5;6;7; 0;0;0;0;0]%Z).
Proof. reflexivity. Qed.
