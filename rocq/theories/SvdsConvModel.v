(** Model of the convergence tests of the singular value solver, over the reals and with
    one process: src/svds/primme_svds_c.c compute_resNorm 1512-1573, default_convTestFun
    1594-1621, convTestFunATA 1640-1685, convTestFunAug 1705-1741, convTestFunSVDS
    1189-1237 (without the conversions to other precisions). *)
From Coq Require Import List ZArith Reals Bool.
From Verif Require Import SvdsModel.
Import ListNotations.
Local Open Scope R_scope.

Definition vec := list R.
(** Num_dot, Num_scal, Num_axpy *)
Fixpoint dot (x y : vec) : R := match x, y with a :: x', b :: y' => a * b + dot x' y' | _, _ => 0 end.
Definition scal (c : R) (x : vec) : vec := map (fun a => c * a) x.
Fixpoint axpy (c : R) (x y : vec) : vec :=
  match x, y with a :: x', b :: y' => (b + c * a) :: axpy c x' y' | _, _ => y end.

Definition lt (a b : R) : bool := if Rlt_dec a b then true else false.
Definition le (a b : R) : bool := if Rle_dec a b then true else false.

(** primme_svds->aNorm, eps; primme->aNorm, primme->stats.estimateLargestSVal; the machine
    precision, that of the products, and the largest number. *)
Record env := Env { s_aNorm : R; s_eps : R; p_aNorm : R; p_est : R; emach : R; emat : R; huge : R }.
Definition set_aNorm (a : R) (e : env) : env :=
  Env a (s_eps e) (p_aNorm e) (p_est e) (emach e) (emat e) (huge e).

Section Tests.
Variables (A At : vec -> vec).                   (* products with the matrix *)

(** compute_resNorm, 1512-1573 *)
Definition compute_resNorm (u v : vec) (e : env) : R :=
  let Atu := At u in
  let Av := A v in
  let ip0 := sqrt (dot v v) in
  let ip1 := sqrt (dot u u) in
  let sval := dot u Av / ip0 / ip1 in
  if lt sval 0 then huge e
  else
    let Atu1 := axpy (- sval / ip0) v (scal (1 / ip1) Atu) in
    let Av1 := axpy (- sval / ip1) u (scal (1 / ip0) Av) in
    sqrt (dot (Atu1 ++ Av1) (Atu1 ++ Av1)).

(** What the callback is given, apart from the structure: the value, the vectors, the
    norm and the operator; it answers whether the triplet is converged and a code. *)
Definition test := env -> R -> option vec -> option vec -> R -> operator -> (bool * Z).

(** default_convTestFun, 1594-1621 *)
Definition default_test : test := fun e sval left right rNorm m =>
  let tol := Rmax (s_eps e) (emach e * 3.16) * s_aNorm e in
  match lt rNorm tol, m, left, right with
  | true, OpAug, Some u, Some v => (lt (compute_resNorm u v e) tol, 0%Z)
  | c, _, _, _ => (c, 0%Z)
  end.

(** The answer of a test of the eigensolver: [None] for [isConv] when the callback
    fails (code 1), with primme_svds->aNorm afterwards. *)
Record verdict := Verdict { v_conv : option bool; v_aNorm : R }.

Definition after (e : env) (e' : env) (r : bool * Z) : verdict :=
  if (snd r =? 0)%Z then Verdict (Some (fst r)) (s_aNorm e) else Verdict None (s_aNorm e').

(** convTestFunATA, 1640-1685; [m] is OpAtA or OpAAt, [eval], [evec] and [rNorm] may be
    absent. *)
Definition test_normal (cb : test) (m : operator) (eval : option R) (evec : option vec)
  (rNorm : option R) (e : env) : verdict :=
  let aNorm := if lt 0 (p_aNorm e) then p_aNorm e else p_est e in
  let maxaNorm := Rmax (p_aNorm e) (p_est e) in
  if match rNorm with Some r => lt r (emat e * maxaNorm * 3.16) | None => false end
  then Verdict (Some true) (s_aNorm e)
  else
    let e' := if le (s_aNorm e) 0 then set_aNorm (sqrt aNorm) e else e in
    let sval := match eval with Some l => sqrt (Rabs l) | None => 0 end in
    let srNorm := match rNorm, eval with Some r, Some _ => r / sval | _, _ => 0 end in
    after e e' (cb e' sval (match m with OpAAt => evec | _ => None end)
                           (match m with OpAtA => evec | _ => None end) srNorm m).

(** convTestFunAug, 1705-1741; [evec] is the right vector followed by the left one. *)
Definition test_augmented (cb : test) (nLocal : nat) (eval : option R) (evec : option vec)
  (rNorm : option R) (e : env) : verdict :=
  let aNorm := if lt 0 (p_aNorm e) then p_aNorm e else p_est e in
  let e' := if le (s_aNorm e) 0 then set_aNorm aNorm e else e in
  let sval := match eval with Some l => Rabs l | None => 0 end in
  let srNorm := match rNorm with Some r => r * sqrt 2 | None => 0 end in
  after e e' (cb e' sval (option_map (skipn nLocal) evec) (option_map (firstn nLocal) evec) srNorm OpAug).
End Tests.
