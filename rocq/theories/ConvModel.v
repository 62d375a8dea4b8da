(** Model of the convergence check: check_convergence_Sprimme and
    check_practical_convergence (src/eigs/convergence.c 86-281), of the default
    convergence test convTestFunAbsolute (src/eigs/primme_c.c 555-570) with
    problemNorm_Sprimme (src/eigs/auxiliary_eigs.c 567-591), and of the places
    that change stats.maxConvTol.

    Numbers are elements of an arbitrary type with arbitrary operations, so
    every theorem that asks for no law of them also covers NaNs.  The norms of
    the projected residuals (ortho_single_iteration) and the answers of the
    user's convergence test are oracles: arbitrary functions of the position.
    Arrays are checked: an access out of range is [Stuck]. *)
From Verif Require Import Base Values.
From Coq Require Import List Arith ZArith Bool.
Import ListNotations.

(** Floating point operations used by the code below. *)
Record rops (V : Type) := {
  r_le : V -> V -> bool;  r_lt : V -> V -> bool;
  r_add : V -> V -> V;  r_sub : V -> V -> V;  r_mul : V -> V -> V;
  r_zero : V }.
Arguments r_le {V}. Arguments r_lt {V}. Arguments r_add {V}. Arguments r_sub {V}.
Arguments r_mul {V}. Arguments r_zero {V}.

(** include/common.h 656: max(a, b) is a > b ? a : b. *)
Definition r_max {V} (o : rops V) (a b : V) : V := if r_lt o b a then a else b.

(** A call may succeed, stop with the error of a user function, or access an
    array out of its bounds. *)
Inductive outcome (A : Type) := Done (a : A) | UserError | Stuck.
Arguments Done {A}. Arguments UserError {A}. Arguments Stuck {A}.

Definition obind {A B} (x : outcome A) (f : A -> outcome B) : outcome B :=
  match x with Done a => f a | UserError => UserError | Stuck => Stuck end.
Definition lift {A} (x : option A) : outcome A :=
  match x with Some a => Done a | None => Stuck end.
Notation "x <~ e ; f" := (obind e (fun x => f))
  (at level 61, e at next level, right associativity).

Section Conv.
Context {V : Type} (o : rops V).

(** What check_convergence reads from primme_params and its scalar arguments.
    [k_epsnorm] is eps_matrix * problemNorm(1); [k_sqrt] is
    sqrt((double)(numOrthoConst + numLocked)). *)
Record conv_in := {
  k_hermitian : bool;  k_target : target;
  k_shifts : list V;  k_initSize : nat;
  k_locking : bool;  k_numLocked : nat;
  k_maxConvTol : V;  k_residualError : V;  k_epsnorm : V;  k_sqrt : V;
  k_givenR : bool;  k_hasReset : bool;  k_pract : Z }.

(** convergence.c 108-109. *)
Definition k_tol (k : conv_in) : V := r_max o (k_epsnorm k) (k_maxConvTol k).

(** convergence.c 114-116. *)
Definition k_attainable (k : conv_in) : V :=
  if k_locking k then r_mul o (k_sqrt k) (k_tol k) else r_zero o.

(** convergence.c 129-132. *)
Definition k_shift (k : conv_in) : V :=
  match k_shifts k with
  | [] => r_zero o
  | _ => nth (Nat.min (k_initSize k) (length (k_shifts k) - 1)) (k_shifts k) (r_zero o)
  end.

(** convergence.c 134-137. *)
Definition outside (k : conv_in) (hval norm : V) : bool :=
  k_hermitian k &&
  match k_target k with
  | closest_leq => r_lt o (k_shift k) (r_sub o hval norm)
  | closest_geq => r_lt o (r_add o hval norm) (k_shift k)
  | _ => false
  end.

(** The decision for one pair, lines 127-184: new flag, whether *reset is set,
    whether the pair goes to the list of residuals to project. *)
Definition judge (k : conv_in) (test : V -> V -> option bool)
           (fl : flag) (hval norm : V) : outcome (flag * bool * bool) :=
  if outside k hval norm then Done (UNCONVERGED, false, false)
  else if r_le o norm (k_maxConvTol k) then Done (CONVERGED, false, false)
  else match test hval norm with
  | None => UserError
  | Some true => Done (CONVERGED, false, false)
  | Some false =>
      if r_le o norm (k_residualError k) && k_hasReset k then
        Done (SKIP_UNTIL_RESTART, true, false)
      else if k_locking k && (0 <? k_numLocked k) && (0 <=? k_pract k)%Z then
        if k_givenR k && r_lt o norm (k_attainable k) then Done (fl, false, true)
        else match fl with
             | PRACTICALLY_CONVERGED => Done (fl, false, false)
             | _ => Done (UNCONVERGED, false, false)
             end
      else Done (UNCONVERGED, false, false)
  end.

(** The loop of lines 123-184 (lo, hi are left, right in the source), from [i], [cnt] iterations.  [test i] is the
    answer of the user's test at iteration i.  Returns the flags, *reset and
    toProject. *)
Fixpoint check_loop (k : conv_in) (test : nat -> V -> V -> option bool)
         (lo : nat) (norms hVals : list V) (cnt i : nat)
         (flags : list flag) (reset : bool) (proj : list nat)
  : outcome (list flag * bool * list nat) :=
  match cnt with
  | 0 => Done (flags, reset, proj)
  | S c =>
      norm <~ lift (get norms (i - lo));
      hval <~ lift (get hVals i);
      fl <~ lift (get flags i);
      r <~ judge k (test i) fl hval norm;
      let '(fl', rs, pr) := r in
      flags' <~ lift (put flags i fl');
      check_loop k test lo norms hVals c (S i) flags' (reset || rs)
        (if pr then proj ++ [i - lo] else proj)
  end.

(** check_practical_convergence, lines 252-279: [pn] gives the norm of the
    projected residual of each entry of the list. *)
Fixpoint project_loop (k : conv_in) (pn : nat -> V) (lo : nat)
         (iev : list nat) (flags : list flag) (norms : list V)
  : outcome (list flag * list V) :=
  match iev with
  | [] => Done (flags, norms)
  | j :: t =>
      norms' <~ lift (put norms j (pn j));
      flags' <~ lift (put flags (lo + j)
                 (if r_le o (pn j) (k_tol k) then PRACTICALLY_CONVERGED else UNCONVERGED));
      project_loop k pn lo t flags' norms'
  end.

Record checked := { ck_flags : list flag; ck_norms : list V; ck_reset : bool }.

(** check_convergence_Sprimme. *)
Definition check_convergence (k : conv_in) (test : nat -> V -> V -> option bool)
           (pn : nat -> V) (lo hi : nat) (flags : list flag)
           (norms hVals : list V) (reset : bool) : outcome checked :=
  r <~ check_loop k test lo norms hVals (hi - lo) lo flags reset [];
  let '(fl, rs, pr) := r in
  q <~ project_loop k pn lo pr fl norms;
  Done {| ck_flags := fst q; ck_norms := snd q; ck_reset := rs |}.

(* ------------------------------------------------------------------ *)
(** The default test.  [d_mass] tells whether massMatrixMatvec is given. *)
Record default_in := {
  d_mass : bool;  d_eps : V;  d_machine : V;  d_two : V;
  d_aNorm : V;  d_invBNorm : V;  d_largestSVal : V }.

(** auxiliary_eigs.c 567-579, overrideUserEstimations = 0. *)
Definition problemNorm0 (d : default_in) : V :=
  if negb (d_mass d) then
    if r_lt o (r_zero o) (d_aNorm d) then d_aNorm d else d_largestSVal d
  else
    if r_lt o (r_zero o) (d_aNorm d) && r_lt o (r_zero o) (d_invBNorm d)
    then r_mul o (d_aNorm d) (d_invBNorm d) else d_largestSVal d.

(** primme_c.c 555-570. *)
Definition convTestFunAbsolute (d : default_in) (rNorm : V) : bool :=
  if negb (d_mass d) then
    r_lt o rNorm (r_mul o (r_max o (d_eps d) (r_mul o (d_machine d) (d_two d))) (problemNorm0 d))
  else
    r_lt o rNorm (r_mul o (r_max o (d_eps d) (d_machine d)) (problemNorm0 d)).

(* ------------------------------------------------------------------ *)
(** The life of stats.maxConvTol.  [Check]: one convergence check (with the
    current maxConvTol in its configuration); afterwards the pairs flagged
    CONVERGED that the solver counts ([counts]) raise the tolerance
    (src/eigs/main_iter.c 1578-1585, src/eigs/restart.c 1168-1171).
    [Forget]: main_iter.c 493 and 389.  [Recount]: restart_soft_locking
    (restart.c 619-634) recomputes it from recorded norms of the pairs still
    flagged, after zeroing it when the first of them is CONVERGED; the model
    takes any subset of the recorded norms.  [OrthoLevel]: restart.c 431-435
    raises it to fn * estimateLargestSVal. *)
Inductive event :=
| Check (k : conv_in) (test : nat -> V -> V -> option bool) (pn : nat -> V)
        (lo hi : nat) (flags : list flag) (norms hVals : list V)
        (counts : nat -> bool)
| Forget
| Recount (zero : bool) (keep : nat -> bool)
| OrthoLevel (level : V).

Definition with_tol (k : conv_in) (t : V) : conv_in :=
  {| k_hermitian := k_hermitian k; k_target := k_target k; k_shifts := k_shifts k;
     k_initSize := k_initSize k; k_locking := k_locking k; k_numLocked := k_numLocked k;
     k_maxConvTol := t; k_residualError := k_residualError k; k_epsnorm := k_epsnorm k;
     k_sqrt := k_sqrt k; k_givenR := k_givenR k; k_hasReset := k_hasReset k;
     k_pract := k_pract k |}.

(** Norms of the counted pairs flagged CONVERGED in [lo, lo+cnt). *)
Fixpoint counted (lo : nat) (flags : list flag) (norms : list V)
         (counts : nat -> bool) (cnt : nat) : list V :=
  match cnt with
  | 0 => []
  | S c =>
      counted lo flags norms counts c ++
      match nth_error flags (lo + c), nth_error norms c with
      | Some CONVERGED, Some x => if counts c then [x] else []
      | _, _ => []
      end
  end.

Fixpoint select {A} (keep : nat -> bool) (i : nat) (l : list A) : list A :=
  match l with
  | [] => []
  | x :: t => if keep i then x :: select keep (S i) t else select keep (S i) t
  end.

(** State: maxConvTol and the recorded norms. *)
Record tol_state := { t_tol : V; t_recorded : list V }.

Definition tol_step (s : tol_state) (e : event) : outcome tol_state :=
  match e with
  | Check k test pn lo hi flags norms hVals counts =>
      r <~ check_convergence (with_tol k (t_tol s)) test pn lo hi flags norms hVals false;
      let acc := counted lo (ck_flags r) (ck_norms r) counts (hi - lo) in
      Done {| t_tol := fold_left (r_max o) acc (t_tol s);
              t_recorded := t_recorded s ++ acc |}
  | Forget => Done {| t_tol := r_zero o; t_recorded := t_recorded s |}
  | Recount z keep =>
      Done {| t_tol := fold_left (r_max o) (select keep 0 (t_recorded s))
                         (if z then r_zero o else t_tol s);
              t_recorded := t_recorded s |}
  | OrthoLevel l => Done {| t_tol := r_max o (t_tol s) l; t_recorded := t_recorded s |}
  end.

Fixpoint tol_run (s : tol_state) (es : list event) : outcome tol_state :=
  match es with
  | [] => Done s
  | e :: t => s' <~ tol_step s e; tol_run s' t
  end.

(** main_iter.c 389. *)
Definition tol_init : tol_state := {| t_tol := r_zero o; t_recorded := [] |}.

End Conv.
