(** The inner iteration: the symmetric quasi minimal residual method that solves
    the correction equation, and the recurrences that follow the Ritz value and
    the residual norm of the corrected vector
    (src/eigs/inner_solve.c, inner_solve_Sprimme).

    One vector of the block is modelled.  The vectors of a block only share the
    calls to the operators; what the indices of a block get wrong is the matter
    of InnerModel.v.  Arithmetic is exact.  All the scalars of the method are
    real numbers, also for complex matrices, and the only products of vectors it
    takes are real parts of x'y (Num_dist_dots_real_Sprimme), so a vector space
    over the reals with a real product of vectors is what the method sees of
    them; the field of scalars is a parameter.  The square roots of the code
    (Theta, c, tau) occur only in the squares, and the model keeps the squares. *)
From Coq Require Import List Arith Lia Bool.
From Verif Require Import Base ProjModel.
Import ListNotations.

Set Implicit Arguments.

(** Vectors: zero, sum, product by a real scalar, real part of x'y
    (Num_zero_matrix, Num_axpy, Num_scal, Num_dist_dots_real). *)
Record vsp (K E : Type) := Vsp { v0 : E; vadd : E -> E -> E; vscl : K -> E -> E; vdot : E -> E -> K }.
Arguments v0 {K E}. Arguments vadd {K E}. Arguments vscl {K E}. Arguments vdot {K E}.

(** What an iteration keeps: the vectors g, d, delta, sol; rho_prev, the squares
    of tau_prev and of Theta_prev, and Beta_prev, Delta_prev, Phi_prev, Psi_prev,
    Gamma_prev (inner_solve.c 119-176). *)
Record qst (K E : Type) := Qst { qg : E; qd : E; qdelta : E; qsol : E;
  qrho : K; qtau2 : K; qth2 : K;
  qBeta : K; qDelta : K; qPhi : K; qPsi : K; qGamma : K }.

Section Qmr.
Context {K E : Type} (o : scal K) (V : vsp K E).
(** apply_projected_matrix and apply_projected_preconditioner, as functions of the
    vector they are applied to (both are the matter of ProjModel.v). *)
Context (M : E -> E) (Kp : E -> E).

Local Notation "a +' b" := (kadd o a b) (at level 50, left associativity).
Local Notation "a -' b" := (ksub o a b) (at level 50, left associativity).
Local Notation "a *' b" := (kmul o a b) (at level 40, left associativity).
Local Notation "a /' b" := (kdiv o a b) (at level 40, left associativity).
Local Notation two := (k1 o +' k1 o).

(** inner_solve.c 208-213, 274-298: g = r, d = K r, zero initial guess, tau = the
    norm of r as the caller gives it (here its square), recurrences at zero. *)
Definition qmr_init (r : E) (rnorm2 : K) : qst K E :=
  let d := Kp r in
  Qst r d (v0 V) (v0 V) (vdot V r d) rnorm2 (k0 o) (k0 o) (k0 o) (k0 o) (k0 o) (k0 o).

(** inner_solve.c 318-357, 380-424, 457-463: w = M d, sigma, alpha, g, Theta, c,
    tau, gamma, eta, delta, sol and the recurrences.  [None]: the vector leaves the
    block before sol is updated (sigma zero, 329-339; alpha zero, 341-354 -- the
    test against the machine precision is simplified to zero), or a division by
    zero: tau_prev (384), and 1 + Theta^2 (385), which no real numbers make zero. *)
Definition qmr_half (q : qst K E) : option (qst K E) :=
  let w := M (qd q) in
  let sigma := vdot V (qd q) w in
  if kzero o sigma then None else
  let alpha := qrho q /' sigma in
  if kzero o alpha then None else
  if kzero o (qtau2 q) then None else
  let g := vadd V (qg q) (vscl V (kopp o alpha) w) in
  let th2 := vdot V g g /' qtau2 q in
  if kzero o (k1 o +' th2) then None else
  let c2 := k1 o /' (k1 o +' th2) in
  let tau2 := qtau2 q *' th2 *' c2 in
  let gamma := c2 *' qth2 q in
  let eta := alpha *' c2 in
  let delta := vadd V (vscl V gamma (qdelta q)) (vscl V eta (qd q)) in
  let sol := vadd V delta (qsol q) in
  let Delta := gamma *' qDelta q +' eta *' qrho q in
  let Beta := qBeta q -' Delta in
  let Phi := gamma *' gamma *' qPhi q +' eta *' eta *' sigma in
  let Psi := gamma *' qPsi q +' gamma *' qPhi q in
  let Gamma := qGamma q +' two *' Psi +' Phi in
  Some (Qst g (qd q) delta sol (qrho q) tau2 th2 Beta Delta Phi Psi Gamma).

(** inner_solve.c 611-634: the next direction, w = K g, rho, beta, d = w + beta d. *)
Definition qmr_next (q : qst K E) : qst K E :=
  let w := Kp (qg q) in
  let rho := vdot V (qg q) w in
  let beta := rho /' qrho q in
  Qst (qg q) (vadd V w (vscl V beta (qd q))) (qdelta q) (qsol q) rho (qtau2 q) (qth2 q)
      (qBeta q) (qDelta q) (qPhi q) (qPsi q) (qGamma q).

(** inner_solve.c 307-318: the state after the update of the iteration numIts = n,
    when no test stopped the loop before. *)
Fixpoint qmr_run (r : E) (rnorm2 : K) (n : nat) : option (qst K E) :=
  match n with
  | 0 => qmr_half (qmr_init r rnorm2)
  | S m => q <- qmr_run r rnorm2 m ; qmr_half (qmr_next q)
  end.

(** inner_solve.c 465-475: Bnorm_x_plus_sol, eval_updated, eres2_updated; eval the
    Ritz value, shift the shift.  Without mass matrix: dot_sol = sol'sol and
    normBx = 1 (299-306, 466). *)
Definition bnorm (q : qst K E) : K := k1 o +' vdot V (qsol q) (qsol q).
Definition eval_updated (eval shift : K) (q : qst K E) : K :=
  shift +' (eval -' shift +' two *' qBeta q +' qGamma q) /' bnorm q.
Definition eres2_updated (eval shift : K) (q : qst K E) : K :=
  qtau2 q /' bnorm q
    +' (eval -' shift +' qBeta q) *' (eval -' shift +' qBeta q) /' bnorm q
    -' (eval_updated eval shift q -' shift) *' (eval_updated eval shift q -' shift).

(** The same lines with a mass matrix [Bm] (297-300, 416-422, 456-466): Bnormsol = sol'B sol
    and normBx = (Bx)'(Bx). *)
Definition bnorm_mass (Bm : E -> E) (q : qst K E) : K := k1 o +' vdot V (qsol q) (Bm (qsol q)).
Definition eval_updated_mass (Bm : E -> E) (eval shift : K) (q : qst K E) : K :=
  shift +' (eval -' shift +' two *' qBeta q +' qGamma q) /' bnorm_mass Bm q.
Definition eres2_updated_mass (Bm : E -> E) (normBx eval shift : K) (q : qst K E) : K :=
  qtau2 q /' bnorm_mass Bm q
    +' normBx *' (eval -' shift +' qBeta q) *' (eval -' shift +' qBeta q) /' bnorm_mass Bm q
    -' (eval_updated_mass Bm eval shift q -' shift) *' (eval_updated_mass Bm eval shift q -' shift).

(** inner_solve.c 568-574: the square of the norm handed to the convergence test
    when the stopping is not adaptive, but for LTolerance_factor: tau^2 numIts. *)
Fixpoint times (n : nat) : K := match n with 0 => k0 o | S m => times m +' k1 o end.
Definition tested2 (n : nat) (q : qst K E) : K := qtau2 q *' times n.

(** inner_solve.c 314-639: the loop.  [stop n q] stands for the tests of 444-598
    after the update of iteration n (tolerances, adaptive stopping, the convergence
    test of the user).  The result is sol: r when the first iteration cannot be
    done (335-338, 349-352), zero when no iteration is allowed. *)
Fixpoint qmr_loop (fuel n : nat) (stop : nat -> qst K E -> bool) (r : E) (q : qst K E) : E :=
  match fuel with
  | 0 => qsol q
  | S f =>
      match qmr_half q with
      | None => if n =? 0 then r else qsol q
      | Some q1 => if stop n q1 then qsol q1
                   else if n + 1 <? n + fuel then qmr_loop f (S n) stop r (qmr_next q1)
                   else qsol q1
      end
  end.
Definition inner_qmr (maxIts : nat) stop (r : E) (rnorm2 : K) : E :=
  qmr_loop maxIts 0 stop r (qmr_init r rnorm2).

End Qmr.
