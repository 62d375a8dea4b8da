(** Model of the control of the singular value solver: the checks of the arguments, the
    two stages, what is returned and how the results of the stages are put together.
    src/svds/primme_svds_c.c 272-540 and the parts of 546-1028 on counts, singular
    values and residual norms.

    The eigensolver is a parameter: what it returns in each stage.  Failures of
    allocations, of casts and of the user's functions inside the wrapper (which return
    at once with their own code) are not modelled. *)
From Coq Require Import List ZArith Bool Lia.
From Verif Require Import Base SvdsModel.
Import ListNotations.
Open Scope Z_scope.

(** The fields primme_svds_check_input looks at. [target] is 0 largest, 1 smallest,
    2 closest_abs (primme_svds.h). *)
Record args := Args {
  numProcs : Z; m : Z; n : Z; mLocal : Z; nLocal : Z;
  has_matvec : bool; has_precond : bool; precondition : Z; has_globalSum : bool;
  numSvals : Z; target : Z; method : operator; methodStage2 : operator; printLevel : Z;
  has_svals : bool; has_svecs : bool; has_resNorms : bool }.

(** 401-407: a program that is not parallel. *)
Definition sequential (s : args) : args :=
  if (numProcs s <=? 1) && has_svals s && has_svecs s && has_resNorms s
  then Args 1 (m s) (n s) (m s) (n s) (has_matvec s) (has_precond s) (precondition s)
         (has_globalSum s) (numSvals s) (target s) (method s) (methodStage2 s)
         (printLevel s) (has_svals s) (has_svecs s) (has_resNorms s)
  else s.

(** primme_svds_set_method for the default method, primme_svds_interface.c 219-240, as
    called by primme_svds_set_defaults (268-272) when no method is set. *)
Definition default_method (s : args) : args :=
  match method s with
  | OpNone =>
      Args (numProcs s) (m s) (n s) (mLocal s) (nLocal s) (has_matvec s) (has_precond s)
        (precondition s) (has_globalSum s) (numSvals s) (target s)
        (if n s <=? m s then OpAtA else OpAAt) OpAug
        (printLevel s) (has_svals s) (has_svecs s) (has_resNorms s)
  | _ => s
  end.

Definition is_op (a b : operator) : bool :=
  match a, b with
  | OpNone, OpNone | OpAtA, OpAtA | OpAAt, OpAAt | OpAug, OpAug => true
  | _, _ => false
  end.

(** primme_svds_check_input, 1045-1093 (the test for a null structure is not modelled;
    the structure has been used by then). *)
Definition check_input (s : args) : Z :=
  if (n s <? 0) || (m s <? 0) || (nLocal s <? 0) || (mLocal s <? 0)
     || (nLocal s >? n s) || (mLocal s >? m s) then -5
  else if numProcs s <? 1 then -6
  else if negb (has_matvec s) then -7
  else if negb (has_precond s) && (precondition s =? 1) then -8
  else if (numProcs s >? 1) && negb (has_globalSum s) then -9
  else if numSvals s >? Z.min (n s) (m s) then -10
  else if numSvals s <? 1 then -11
  else if negb (target s =? 1) && negb (target s =? 0) && negb (target s =? 2) then -13
  else if negb (is_op (method s) OpAtA) && negb (is_op (method s) OpAAt)
          && negb (is_op (method s) OpAug) then -14
  else if (is_op (method s) OpAug && negb (is_op (methodStage2 s) OpNone))
          || (negb (is_op (method s) OpAug) && negb (is_op (methodStage2 s) OpAug)
              && negb (is_op (methodStage2 s) OpNone)) then -15
  else if (printLevel s <? 0) || (printLevel s >? 5) then -16
  else if negb (has_svals s) then -17
  else if negb (has_svecs s) then -18
  else if negb (has_resNorms s) then -19
  else 0.

(** The arithmetic on singular values and residual norms. *)
Section Results.
Context {V : Type}.

(** What the eigensolver returns: its code and, for each pair found, the value and the
    residual norm. *)
Record answer := Answer { code : Z; pairs : list (V * V) }.

(** 898-902 and 1012-1017 (normal equations), 1018-1022 (augmented). *)
Variables (root : V -> V) (over : V -> V -> V) (r2 : V -> V).

(** The values and residual norms the wrapper keeps after the first stage. *)
Definition after_stage1 (mth : operator) (l : list (V * V)) : list (V * V) :=
  match mth with
  | OpAtA | OpAAt => map (fun p => (root (fst p), over (snd p) (root (fst p)))) l
  | OpAug => map (fun p => (fst p, r2 (snd p))) l
  | OpNone => l
  end.

(** The test the user's convTestFun answers before the second stage: a triplet with its
    value, its norm, and the column of svecs it is given. *)
Variable accept : V -> V -> nat -> bool.

(** 800-823: [l] holds primme->initSize triplets; [c] is primme->numOrthoConst and
    [e] primme->numEvals. *)
Fixpoint carry (l : list (V * V)) (c : nat) (e : Z) : nat * nat * nat * Z :=
  match l with
  | [] => (0%nat, 0%nat, c, e)
  | p :: t =>
      if accept (fst p) (snd p) c
      then let '(k, i, c', e') := carry t (S c) (e - 1) in (S k, i, c', e')
      else (0%nat, length l, c, e)
  end.

(** What each stage's eigensolver was asked for: initial vectors, constraints, pairs. *)
Record request := Request { r_init : nat; r_const : nat; r_evals : Z; r_first : nat }.

Record outcome := Outcome {
  ret : Z; out : list (V * V);            (* what the caller gets *)
  calls : list request }.

(** 499-520 and 1012-1022: the second stage.  The values found are written after the
    ones carried over; residual norms of all of them are scaled at the end.  When there
    is no triplet to start from, a guess is made (762-790); the value tested with it is
    not set, which [None] stands for. *)
Definition stage2 (s : args) (noc : nat) (l : list (V * V)) (solve : request -> answer) : option outcome :=
  match l with
  | [] => None
  | _ =>
    let '(k, i, c, e) := carry l noc (numSvals s) in
    let first := Z.to_nat (numSvals s - e) in
    let rq := Request i c e first in
    let a := solve rq in
    Some (Outcome (if code a =? 0 then 0 else code a - 200)
            (map (fun p => (fst p, r2 (snd p))) (firstn first l ++ pairs a)) [rq])
  end.

(** wrapper_svds_Sprimme, 385-540. *)
Definition wrapper (s0 : args) (noc init : nat) (solve1 solve2 : request -> answer) : option outcome :=
  let s := default_method (sequential s0) in
  if negb (has_svals s) && negb (has_svecs s) && negb (has_resNorms s)
  then Some (Outcome 0 [] [])
  else if negb (check_input s =? 0) then Some (Outcome (check_input s) [] [])
  else
    let rq := Request init noc (numSvals s) 0 in
    let a := solve1 rq in
    let l := after_stage1 (method s) (pairs a) in
    if negb (is_op (methodStage2 s) OpNone) && (code a =? 0)
    then o <- stage2 s noc l solve2;
         Some (Outcome (ret o) (out o) (rq :: calls o))
    else Some (Outcome (if code a =? 0 then 0 else code a - 100) l [rq]).

End Results.
Arguments answer : clear implicits.
Arguments outcome : clear implicits.
