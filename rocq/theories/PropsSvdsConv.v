(** C43: what the convergence tests of the singular value solver guarantee. *)
From Coq Require Import List ZArith Reals Lra Bool.
From Verif Require Import SvdsModel SvdsConvModel.
Import ListNotations.
Local Open Scope R_scope.

(** ** Specification.  The documented residual norm of a triplet, and what a matrix is. *)
Definition minus (x y : vec) : vec := axpy (-1) y x.
Definition norm (x : vec) : R := sqrt (dot x x).
Definition residual (A At : vec -> vec) (s : R) (u v : vec) : R :=
  sqrt (dot (minus (A v) (scal s u)) (minus (A v) (scal s u))
        + dot (minus (At u) (scal s v)) (minus (At u) (scal s v))).
Record matrix (A At : vec -> vec) (m n : nat) : Prop := {
  m_A : forall c x, A (scal c x) = scal c (A x); m_At : forall c x, At (scal c x) = scal c (At x);
  m_lA : forall x, length x = n -> length (A x) = m;
  m_lAt : forall x, length x = m -> length (At x) = n }.
(** The documented tolerance, for the norm of A the solver has. *)
Definition tolerance (e : env) (aNorm : R) : R := Rmax (s_eps e) (emach e * 3.16) * aNorm.

Lemma dot_scal : forall c x y, dot (scal c x) y = c * dot x y.
Proof. induction x as [|a x IH]; intros [|b y]; cbn; try lra. rewrite IH. lra. Qed.
Lemma dot_comm : forall x y, dot x y = dot y x.
Proof. induction x as [|a x IH]; intros [|b y]; cbn; try lra. rewrite IH. lra. Qed.
Lemma dot_scal2 : forall c x, dot (scal c x) (scal c x) = c * c * dot x x.
Proof. intros. rewrite dot_scal, dot_comm, dot_scal. lra. Qed.
Lemma dot_pos : forall x, 0 <= dot x x.
Proof. induction x; cbn; [lra|]. pose proof (Rle_0_sqr a). unfold Rsqr in *. lra. Qed.
Lemma dot_app : forall a b c d, length a = length c -> dot (a ++ b) (c ++ d) = dot a c + dot b d.
Proof.
  induction a as [|x a IH]; intros b [|y c] d H; try discriminate H; cbn; [lra|].
  rewrite IH by (now injection H). lra.
Qed.
Lemma norm_scal : forall c x, 0 <= c -> norm (scal c x) = c * norm x.
Proof.
  intros c x H. unfold norm. rewrite dot_scal2, sqrt_mult by (try apply dot_pos; now apply Rmult_le_pos).
  now rewrite sqrt_square.
Qed.
Lemma scal_scal : forall a b x, scal a (scal b x) = scal (a * b) x.
Proof. intros. unfold scal. rewrite map_map. apply map_ext. intro. lra. Qed.
Lemma scal_one : forall x, scal 1 x = x.
Proof. intros. unfold scal. rewrite <- (map_id x) at 2. apply map_ext. intro. lra. Qed.
Lemma minus_self : forall x, dot (minus x x) (minus x x) = 0.
Proof. induction x as [|a x IH]; cbn; [reflexivity|]. unfold minus in IH. rewrite IH. lra. Qed.
Lemma scal_minus : forall c x y, scal c (minus x y) = minus (scal c x) (scal c y).
Proof.
  intros c. unfold minus. induction x as [|a x IH]; intros [|b y]; cbn; try reflexivity.
  f_equal; [lra|apply IH].
Qed.
Lemma axpy_minus : forall c x y, axpy (- c) x y = minus y (scal c x).
Proof.
  intros c. unfold minus. induction x as [|a x IH]; intros [|b y]; cbn; try reflexivity.
  f_equal; [lra|apply IH].
Qed.
Lemma axpy_length : forall c x y, length (axpy c x y) = length y.
Proof. induction x as [|a x IH]; intros [|b y]; cbn; auto. Qed.
Lemma lt_iff : forall a b, lt a b = true <-> a < b.
Proof. intros. unfold lt. destruct (Rlt_dec a b); split; intro; auto; discriminate. Qed.

(** With u = Av/s and s^2 = lambda the residual norm of the triplet is that of the pair of
    A'A divided by s; likewise for AA'. *)
Lemma residual_normal : forall A At m n s v, matrix A At m n -> 0 < s ->
  residual A At s (scal (1 / s) (A v)) v = norm (minus (At (A v)) (scal (s * s) v)) / s.
Proof.
  intros A At m n s v M S. unfold residual.
  rewrite scal_scal. replace (s * (1 / s)) with 1 by (field; lra).
  rewrite scal_one, minus_self, Rplus_0_l, (m_At _ _ _ _ M).
  replace (scal s v) with (scal (1 / s) (scal (s * s) v)) by (rewrite scal_scal; f_equal; field; lra).
  rewrite <- scal_minus. fold (norm (scal (1 / s) (minus (At (A v)) (scal (s * s) v)))).
  rewrite norm_scal; [field; lra|]. apply Rlt_le. apply Rdiv_lt_0_compat; lra.
Qed.
Lemma residual_swap : forall A At s u v, residual A At s u v = residual At A s v u.
Proof. intros. unfold residual. now rewrite Rplus_comm. Qed.

(** The norm of A a test uses: the caller's, or else the square root of the eigensolver's. *)
Definition norm_used (e : env) : R :=
  if le (s_aNorm e) 0 then sqrt (if lt 0 (p_aNorm e) then p_aNorm e else p_est e) else s_aNorm e.
Definition norm_used_aug (e : env) : R :=
  if le (s_aNorm e) 0 then (if lt 0 (p_aNorm e) then p_aNorm e else p_est e) else s_aNorm e.

Lemma tol_set : forall e a, tolerance (set_aNorm a e) = tolerance e.
Proof. reflexivity. Qed.

Lemma default_seen : forall A At e s v r m, m <> OpAug ->
  default_test A At e s (match m with OpAAt => v | _ => None end) (match m with OpAtA => v | _ => None end) r m
  = (lt r (tolerance e (s_aNorm e)), 0%Z).
Proof. intros A At e s v r m H. unfold default_test, tolerance. destruct (lt _ _), m; try reflexivity; now destruct H. Qed.

(** Normal equations, default test: a pair (lambda, v) of A'A whose norm is not at the
    limit of the machine precision is accepted exactly if the triplet it gives has a
    residual norm below the documented tolerance. *)
Theorem C43_AtA : forall A At m n e lambda v, matrix A At m n -> 0 < lambda ->
  emat e * Rmax (p_aNorm e) (p_est e) * 3.16 <= norm (minus (At (A v)) (scal lambda v)) ->
  v_conv (test_normal (default_test A At) OpAtA (Some lambda) (Some v)
            (Some (norm (minus (At (A v)) (scal lambda v)))) e) = Some true
  <-> residual A At (sqrt lambda) (scal (1 / sqrt lambda) (A v)) v < tolerance e (norm_used e).
Proof.
  intros A At m n e lambda v M L H. unfold test_normal.
  assert (S : 0 < sqrt lambda) by now apply sqrt_lt_R0.
  destruct (lt (norm _) (emat e * _ * _)) eqn:C; [apply lt_iff in C; lra|].
  rewrite (residual_normal A At m n _ _ M S), sqrt_sqrt by lra.
  rewrite (Rabs_pos_eq lambda) by lra.
  rewrite (default_seen A At _ _ (Some v) _ OpAtA) by discriminate.
  unfold after. cbn [snd fst Z.eqb v_conv].
  replace (tolerance _ (s_aNorm _)) with (tolerance e (norm_used e))
    by (unfold norm_used; now destruct (le (s_aNorm e) 0)).
  split; intro X; [injection X as X; now apply lt_iff|f_equal; now apply lt_iff].
Qed.

Theorem C43_AAt : forall A At m n e lambda u, matrix A At m n -> 0 < lambda ->
  emat e * Rmax (p_aNorm e) (p_est e) * 3.16 <= norm (minus (A (At u)) (scal lambda u)) ->
  v_conv (test_normal (default_test A At) OpAAt (Some lambda) (Some u)
            (Some (norm (minus (A (At u)) (scal lambda u)))) e) = Some true
  <-> residual A At (sqrt lambda) u (scal (1 / sqrt lambda) (At u)) < tolerance e (norm_used e).
Proof.
  intros A At m n e lambda u M L H. unfold test_normal.
  assert (S : 0 < sqrt lambda) by now apply sqrt_lt_R0.
  assert (M' : matrix At A n m) by (destruct M; constructor; auto).
  destruct (lt (norm _) (emat e * _ * _)) eqn:C; [apply lt_iff in C; lra|].
  rewrite residual_swap, (residual_normal At A n m _ _ M' S), sqrt_sqrt by lra.
  rewrite (Rabs_pos_eq lambda) by lra.
  rewrite (default_seen A At _ _ (Some u) _ OpAAt) by discriminate.
  unfold after. cbn [snd fst Z.eqb v_conv].
  replace (tolerance _ (s_aNorm _)) with (tolerance e (norm_used e))
    by (unfold norm_used; now destruct (le (s_aNorm e) 0)).
  split; intro X; [injection X as X; now apply lt_iff|f_equal; now apply lt_iff].
Qed.

(** compute_resNorm gives the residual norm of the triplet with both vectors of norm one
    and the value u'Av. *)
Lemma resNorm_spec : forall A At m n e u v, matrix A At m n -> length u = m -> length v = n ->
  0 < norm u -> 0 < norm v ->
  let u1 := scal (1 / norm u) u in
  let v1 := scal (1 / norm v) v in
  let s := dot u1 (A v1) in
  compute_resNorm A At u v e = if lt s 0 then huge e else residual A At s u1 v1.
Proof.
  intros A At m n e u v M Lu Lv U V u1 v1 s. unfold compute_resNorm. fold (norm u) (norm v).
  assert (Hs : dot u (A v) / norm v / norm u = s).
  { unfold s, u1, v1. rewrite (m_A _ _ _ _ M), dot_scal, (dot_comm u (scal _ _)), dot_scal, (dot_comm (A v)). field; lra. }
  rewrite Hs. destruct (lt s 0); [reflexivity|].
  rewrite dot_app by reflexivity. unfold residual. rewrite Rplus_comm.
  unfold Rdiv at 1 3 5 7. rewrite <- !Ropp_mult_distr_l. rewrite !axpy_minus.
  unfold u1, v1. rewrite (m_A _ _ _ _ M), (m_At _ _ _ _ M), !scal_scal.
  replace (s * (1 / norm u)) with (s * / norm u) by (unfold Rdiv; lra).
  replace (s * (1 / norm v)) with (s * / norm v) by (unfold Rdiv; lra).
  reflexivity.
Qed.

(** Augmented matrix, default test: nothing is accepted whose actual residual norm, with
    its vectors normalized, is not below the tolerance or whose value is negative; a pair
    that passes with the eigensolver's norm is accepted exactly in that case. *)
Theorem C43_augmented : forall A At m n e lambda u v r, matrix A At m n -> length u = m -> length v = n ->
  0 < norm u -> 0 < norm v -> tolerance e (norm_used_aug e) <= huge e ->
  let u1 := scal (1 / norm u) u in
  let v1 := scal (1 / norm v) v in
  let s := dot u1 (A v1) in
  v_conv (test_augmented (default_test A At) n (Some lambda) (Some (v ++ u)) (Some r) e) = Some true
  <-> r * sqrt 2 < tolerance e (norm_used_aug e) /\ 0 <= s
      /\ residual A At s u1 v1 < tolerance e (norm_used_aug e).
Proof.
  intros A At m n e lambda u v r M Lu Lv U V T u1 v1 s. unfold test_augmented. cbn [option_map].
  rewrite <- Lv at 1 2. rewrite firstn_app, skipn_app, Nat.sub_diag, firstn_all, skipn_all. cbn [firstn skipn app].
  rewrite app_nil_r.
  set (e' := if le (s_aNorm e) 0 then _ else e).
  assert (Te : tolerance e' (s_aNorm e') = tolerance e (norm_used_aug e))
    by (unfold e', norm_used_aug; now destruct (le (s_aNorm e) 0)).
  assert (He : huge e' = huge e) by (unfold e'; now destruct (le (s_aNorm e) 0)).
  unfold default_test. fold (tolerance e' (s_aNorm e')). rewrite Te.
  destruct (lt (r * sqrt 2) (tolerance e (norm_used_aug e))) eqn:C1.
  - apply lt_iff in C1. rewrite (resNorm_spec A At m n e' u v M Lu Lv U V). fold u1 v1 s. rewrite He.
    unfold after. cbn [snd fst Z.eqb v_conv].
    destruct (lt s 0) eqn:C2.
    + apply lt_iff in C2. split; [intro X; injection X as X; apply lt_iff in X; lra|intros [_ [X _]]; lra].
    + assert (0 <= s) by (unfold lt in C2; destruct (Rlt_dec s 0); [discriminate|lra]).
      split; [intro X; injection X as X; apply lt_iff in X; auto|].
      intros [_ [_ X]]. f_equal. now apply lt_iff.
  - assert (~ r * sqrt 2 < tolerance e (norm_used_aug e)) by (intro X; apply lt_iff in X; congruence).
    unfold after. cbn [snd fst Z.eqb v_conv]. split; [discriminate|intros [X _]; contradiction].
Qed.

(** A test of the caller: it sees the square root of the eigenvalue, the norm divided by
    it, the vector on its side, and a positive norm of A whenever one is known; the
    caller's aNorm is afterwards what it was. *)
Theorem C43_callback : forall cb m e lambda x r, m = OpAtA \/ m = OpAAt ->
  emat e * Rmax (p_aNorm e) (p_est e) * 3.16 <= r -> (forall e s l v q o, snd (cb e s l v q o) = 0%Z) ->
  test_normal cb m (Some lambda) (Some x) (Some r) e
  = Verdict (Some (fst (cb (set_aNorm (norm_used e) e) (sqrt (Rabs lambda))
                           (match m with OpAAt => Some x | _ => None end)
                           (match m with OpAtA => Some x | _ => None end) (r / sqrt (Rabs lambda)) m)))
            (s_aNorm e).
Proof.
  intros cb m e lambda x r Hm H K. unfold test_normal.
  destruct (lt r (emat e * _ * _)) eqn:C; [apply lt_iff in C; lra|].
  unfold after. rewrite K. cbn [Z.eqb]. f_equal. f_equal. f_equal.
  unfold norm_used. destruct (le (s_aNorm e) 0); destruct e; reflexivity.
Qed.

Theorem C43_callback_augmented : forall cb n e lambda v u r, length v = n ->
  (forall e s l v q o, snd (cb e s l v q o) = 0%Z) ->
  test_augmented cb n (Some lambda) (Some (v ++ u)) (Some r) e
  = Verdict (Some (fst (cb (set_aNorm (norm_used_aug e) e) (Rabs lambda) (Some u) (Some v) (r * sqrt 2) OpAug)))
            (s_aNorm e).
Proof.
  intros cb n e lambda v u r Lv K. unfold test_augmented. cbn [option_map]. subst n.
  rewrite firstn_app, skipn_app, Nat.sub_diag, firstn_all, skipn_all. cbn [firstn skipn app]. rewrite app_nil_r.
  unfold after. rewrite K. cbn [Z.eqb]. f_equal. f_equal. f_equal.
  unfold norm_used_aug. destruct (le (s_aNorm e) 0); destruct e; reflexivity.
Qed.

(** What the eigensolver does not give it does not have: without a residual norm the test
    of the caller decides and is told zero, without a value it is told zero twice. *)
Theorem C43_absent : forall cb m e eval x r, m = OpAtA \/ m = OpAAt ->
  (forall e s l v q o, snd (cb e s l v q o) = 0%Z) ->
  (r = None \/ exists r0, r = Some r0 /\ emat e * Rmax (p_aNorm e) (p_est e) * 3.16 <= r0) ->
  (eval = None \/ r = None) ->
  test_normal cb m eval x r e
  = Verdict (Some (fst (cb (set_aNorm (norm_used e) e) (match eval with Some l => sqrt (Rabs l) | None => 0 end)
                           (match m with OpAAt => x | _ => None end) (match m with OpAtA => x | _ => None end) 0 m)))
            (s_aNorm e).
Proof.
  intros cb m e eval x r Hm K Hr Hx. unfold test_normal.
  replace (match r with Some r => lt r _ | None => false end) with false.
  2: { destruct Hr as [->|[r0 [-> Hr]]]; [reflexivity|]. destruct (lt r0 _) eqn:C; [apply lt_iff in C; lra|reflexivity]. }
  unfold after. rewrite K. cbn [Z.eqb]. f_equal. f_equal. f_equal. f_equal.
  - unfold norm_used. destruct (le (s_aNorm e) 0); destruct e; reflexivity.
  - destruct Hx as [->| ->]; [destruct r|]; reflexivity.
Qed.

Theorem C43_absent_augmented : forall cb n e eval x r,
  (forall e s l v q o, snd (cb e s l v q o) = 0%Z) ->
  test_augmented cb n eval x r e
  = Verdict (Some (fst (cb (set_aNorm (norm_used_aug e) e) (match eval with Some l => Rabs l | None => 0 end)
                           (match x with Some w => Some (skipn n w) | None => None end)
                           (match x with Some w => Some (firstn n w) | None => None end)
                           (match r with Some q => q * sqrt 2 | None => 0 end) OpAug)))
            (s_aNorm e).
Proof.
  intros cb n e eval x r K. unfold test_augmented, after. rewrite K. cbn [Z.eqb]. f_equal. f_equal. f_equal.
  replace (if le (s_aNorm e) 0 then _ else e) with (set_aNorm (norm_used_aug e) e); [destruct x; reflexivity|].
  unfold norm_used_aug. destruct (le (s_aNorm e) 0); destruct e; reflexivity.
Qed.

Theorem C43_norm_positive : forall e, 0 < s_aNorm e \/ 0 < p_aNorm e \/ 0 < p_est e ->
  0 < norm_used e /\ 0 < norm_used_aug e.
Proof.
  intros e H. unfold norm_used, norm_used_aug, le, lt.
  destruct (Rle_dec (s_aNorm e) 0); [|split; lra].
  destruct (Rlt_dec 0 (p_aNorm e)); split; try (apply sqrt_lt_R0); lra.
Qed.

(** Faulty: if the caller's test fails the norm put in its structure stays. *)
Theorem C43_restore_refuted : exists cb e, s_aNorm e = 0 /\
  v_aNorm (test_augmented cb 1 (Some 1) (Some [1; 1]) (Some 1) e) = 5.
Proof.
  exists (fun _ _ _ _ _ _ => (false, 1%Z)), (Env 0 1 5 5 0 0 10). split; [reflexivity|].
  unfold test_augmented, after. cbn. unfold le, lt. cbn.
  destruct (Rle_dec 0 0); [|lra]. destruct (Rlt_dec 0 5); [reflexivity|lra].
Qed.

(** At the limit of the machine precision a pair of the normal equations is accepted
    whatever the residual norm of its triplet, which may be far above the tolerance: here
    the matrix diag(1, 1/1000) with a precision of 10^-4 and a tolerance of 1/2000. *)
Definition dA (x : vec) : vec := match x with [a; b] => [a; b / 1000] | _ => x end.
Lemma dA_matrix : matrix dA dA 2 2.
Proof.
  constructor; try (intros x Hx; destruct x as [|? [|? [|? ?]]]; try discriminate Hx; reflexivity).
    - intros c x. destruct x as [|? [|? [|? ?]]]; try reflexivity. cbn. unfold Rdiv. now rewrite Rmult_assoc.
    - intros c x. destruct x as [|? [|? [|? ?]]]; try reflexivity. cbn. unfold Rdiv. now rewrite Rmult_assoc.
Qed.
Theorem C43_machine_refuted : exists e lambda v, 0 < lambda /\ norm v = 1
  /\ v_conv (test_normal (default_test dA dA) OpAtA (Some lambda) (Some v)
               (Some (norm (minus (dA (dA v)) (scal lambda v)))) e) = Some true
  /\ tolerance e (norm_used e) <= residual dA dA (sqrt lambda) (scal (1 / sqrt lambda) (dA v)) v / 10.
Proof.
  set (l := 1 / 100000000). exists (Env 1 (1 / 2000) 1 1 (1 / 10000) (1 / 10000) 1000), l, [0; 1].
  assert (L : 0 < l) by (unfold l; lra).
  assert (Hs : sqrt l = 1 / 10000).
  { unfold l. replace (1 / 100000000) with (1 / 10000 * (1 / 10000)) by lra. apply sqrt_square. lra. }
  pose proof dA_matrix as Mx.
  assert (Hr : norm (minus (dA (dA [0; 1])) (scal l [0; 1])) = 1 / 1000000 - l).
  { unfold norm, minus. cbn.
    replace (_ + (_ + 0)) with ((1 / 1000000 - l) * (1 / 1000000 - l)) by (unfold l; lra).
    apply sqrt_square. unfold l. lra. }
  split; [exact L|]. split; [unfold norm; cbn; replace (0 * 0 + (1 * 1 + 0)) with 1 by lra; apply sqrt_1|]. split.
  - unfold test_normal. rewrite Hr. cbn [emat p_aNorm p_est].
    replace (lt _ _) with true; [reflexivity|]. symmetry. apply lt_iff. rewrite Rmax_left by lra. unfold l. lra.
  - rewrite (residual_normal dA dA 2 2 _ _ Mx) by (rewrite Hs; lra).
    rewrite sqrt_sqrt by lra. rewrite Hr, Hs. unfold tolerance, norm_used. cbn [s_aNorm s_eps emach].
    unfold le. destruct (Rle_dec 1 0); [lra|]. rewrite Rmax_left by lra. unfold l. lra.
Qed.

(** Cases that meet the hypotheses: the same matrix, with its second triplet accepted by
    both tests and a poor value refused. *)
Definition ex_env : env := Env 1 (1 / 1000) 1 1 0 0 1000.
Lemma ex_tol : tolerance ex_env (norm_used ex_env) = 1 / 1000 /\ tolerance ex_env (norm_used_aug ex_env) = 1 / 1000.
Proof.
  unfold tolerance, norm_used, norm_used_aug, ex_env, le. cbn [s_aNorm s_eps emach].
  destruct (Rle_dec 1 0); [lra|]. rewrite Rmax_left by lra. lra.
Qed.
Lemma ex_norm : norm [0; 1] = 1.
Proof. unfold norm. cbn. replace (0 * 0 + (1 * 1 + 0)) with 1 by lra. apply sqrt_1. Qed.
Example C43_AtA_ex : v_conv (test_normal (default_test dA dA) OpAtA (Some (1 / 1000000)) (Some [0; 1])
     (Some (norm (minus (dA (dA [0; 1])) (scal (1 / 1000000) [0; 1])))) ex_env) = Some true.
Proof.
  apply (C43_AtA dA dA 2 2 ex_env (1 / 1000000) [0; 1] dA_matrix).
  - lra.
  - cbn [emat ex_env]. rewrite !Rmult_0_l. apply sqrt_pos.
  - rewrite (proj1 ex_tol). rewrite (residual_normal dA dA 2 2 _ _ dA_matrix) by (apply sqrt_lt_R0; lra).
    rewrite sqrt_sqrt by lra. unfold norm, minus. cbn.
    replace (_ + (_ + 0)) with 0 by lra. rewrite sqrt_0. unfold Rdiv. rewrite Rmult_0_l. lra.
Qed.
Example C43_AtA_ex_refused : v_conv (test_normal (default_test dA dA) OpAtA (Some (1 / 4)) (Some [0; 1])
     (Some (norm (minus (dA (dA [0; 1])) (scal (1 / 4) [0; 1])))) ex_env) <> Some true.
Proof.
  intro H. apply (C43_AtA dA dA 2 2 ex_env (1 / 4) [0; 1] dA_matrix) in H; [|lra|].
  - rewrite (proj1 ex_tol) in H. rewrite (residual_normal dA dA 2 2 _ _ dA_matrix) in H by (apply sqrt_lt_R0; lra).
    rewrite sqrt_sqrt in H by lra.
    assert (S : sqrt (1 / 4) = 1 / 2) by (replace (1 / 4) with (1 / 2 * (1 / 2)) by lra; apply sqrt_square; lra).
    rewrite S in H. unfold norm, minus in H. cbn in H.
    replace (_ + (_ + 0)) with ((1 / 4 - 1 / 1000000) * (1 / 4 - 1 / 1000000)) in H by lra.
    rewrite sqrt_square in H by lra. lra.
  - cbn [emat ex_env]. rewrite !Rmult_0_l. apply sqrt_pos.
Qed.
Example C43_augmented_ex : v_conv (test_augmented (default_test dA dA) 2 (Some (1 / 1000)) (Some ([0; 1] ++ [0; 1]))
     (Some 0) ex_env) = Some true.
Proof.
  apply (C43_augmented dA dA 2 2 ex_env (1 / 1000) [0; 1] [0; 1] 0 dA_matrix); try reflexivity;
    try (rewrite ex_norm; lra); try (rewrite (proj2 ex_tol); cbn [huge ex_env]; lra).
  rewrite (proj2 ex_tol), ex_norm. replace (1 / 1) with 1 by lra. rewrite !scal_one.
  repeat split; [lra|cbn; lra|]. unfold residual, minus. cbn.
  match goal with |- sqrt ?x < _ => replace x with 0 by lra end. rewrite sqrt_0. lra.
Qed.
