(** What the inner iteration is supposed to do, independent of how it does it. *)
From Verif Require Import Base ProjModel SpecProj QmrModel.
Set Implicit Arguments.

Section Spec.
Context {K E : Type} (o : scal K) (V : vsp K E).
Local Notation dt := (vdot V).

(** The real part of x'y is bilinear over the real scalars and symmetric. *)
Record real_product := RealProduct {
  p_add : forall a b c, dt (vadd V a b) c = kadd o (dt a c) (dt b c);
  p_scl : forall k a c, dt (vscl V k a) c = kmul o k (dt a c);
  p_sym : forall a b, dt a b = dt b a;
  p_0 : forall c, dt (v0 V) c = k0 o }.

(** A set of vectors closed by sums and by real scalars. *)
Record subspace (U : E -> Prop) := Subspace {
  u_0 : U (v0 V);
  u_add : forall a b, U a -> U b -> U (vadd V a b);
  u_scl : forall k a, U a -> U (vscl V k a) }.

(** A linear operator, as far as products of vectors can tell. *)
Record linear (M : E -> E) := Linear {
  m_0 : forall v, dt (M (v0 V)) v = k0 o;
  m_add : forall a b v, dt (M (vadd V a b)) v = kadd o (dt (M a) v) (dt (M b) v);
  m_scl : forall k a v, dt (M (vscl V k a)) v = kmul o k (dt (M a) v) }.

(** a - b. *)
Definition minus (a b : E) : E := vadd V a (vscl V (kopp o (k1 o)) b).

(** The correction equation M sol = r the inner iteration is given: the directions
    live in U, the residuals in W; M takes U to W and is symmetric on U; the
    preconditioner takes W to U and is symmetric on W. *)
Record correction_equation (M Kp : E -> E) (r : E) (U W : E -> Prop) := CorrectionEquation {
  ce_U : subspace U; ce_W : subspace W;
  ce_lin : linear M;
  ce_r : W r;
  ce_M : forall u, U u -> W (M u);
  ce_K : forall g, W g -> U (Kp g);
  ce_Msym : forall u v, U u -> U v -> dt (M u) v = dt u (M v);
  ce_Ksym : forall a b, W a -> W b -> dt (Kp a) b = dt a (Kp b) }.

(** theta is the Rayleigh quotient of y for the matrix A. *)
Definition rayleigh (A : E -> E) (y : E) (theta : K) : Prop :=
  kmul o theta (dt y y) = dt y (A y).

(** x is a unit vector, theta its Rayleigh quotient for the symmetric A, r its
    residual. *)
Record ritz (A : E -> E) (x r : E) (theta : K) := Ritz {
  rz_lin : linear A;
  rz_sym : forall a b, dt (A a) b = dt a (A b);
  rz_unit : dt x x = k1 o;
  rz_theta : dt x (A x) = theta;
  rz_r : forall v, dt r v = ksub o (dt (A x) v) (kmul o theta (dt x v)) }.

(** The same for the pencil (A, B): theta is the Rayleigh quotient of y; x has norm one in
    the inner product of B. *)
Definition rayleigh_mass (A B : E -> E) (y : E) (theta : K) : Prop :=
  kmul o theta (dt y (B y)) = dt y (A y).
Record ritz_mass (A B : E -> E) (x r : E) (theta : K) := RitzMass {
  rm_lin : linear A; rm_linB : linear B;
  rm_sym : forall a b, dt (A a) b = dt a (A b);
  rm_symB : forall a b, dt (B a) b = dt a (B b);
  rm_unit : dt x (B x) = k1 o;
  rm_theta : dt x (A x) = theta;
  rm_r : forall v, dt r v = ksub o (dt (A x) v) (kmul o theta (dt (B x) v)) }.

End Spec.
