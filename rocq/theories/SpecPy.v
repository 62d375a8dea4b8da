(** What the documentation of [eigsh] and [svds] (Python/primme.pyx 289-480, 1080-1235)
    and of the arrays of the C solvers says. *)
From Coq Require Import ZArith List Bool.
From Verif Require Import Values FieldsModel PyModel.
Import ListNotations.

Section Wanted.
Context {V K : Type}.
Variable (o : vops V) (vzero : V).

(** "Which k eigenvectors and eigenvalues to find", 325-338: [x] is at least as good as
    [y], both on the side asked for.  "When sigma == None, 'LM', 'SM', 'CLT', and 'CGT'
    treat sigma as zero." *)
Definition wanted (w : which_arg V) (sigma : option V) (x y : V) : Prop :=
  let s := match sigma with Some s => s | None => vzero end in
  match w with
  | LM => vleb o (vdist o s y) (vdist o s x) = true       (* the farthest from sigma *)
  | SM => vleb o (vdist o s x) (vdist o s y) = true       (* the closest to sigma *)
  | LA => vleb o y x = true
  | SA => vleb o x y = true
  | CLT => vleb o (vsub o s x) (vsub o s y) = true        (* closest but left to sigma *)
  | CGT => vleb o (vsub o x s) (vsub o y s) = true        (* closest but greater than sigma *)
  | Number v => vleb o (vdist o v x) (vdist o v y) = true (* the closest to which *)
  | Other => False
  end.

(** Arguments that are accepted. *)
Definition acceptable (a : eigsh_args V K) : Prop :=
  a_rows a = a_cols a /\ (1 <= a_k a <= a_rows a)%Z /\
  (forall r, a_M a = Some r -> r = a_rows a) /\
  a_which a <> Other /\ (forall v, a_which a = Number v -> a_sigma a = None) /\
  (forall r c, a_OPinv a = Some (r, c) -> r = a_rows a /\ c = a_rows a) /\
  (forall r l, a_lock a = Some (r, l) -> r = a_rows a) /\
  (forall r l, a_v0 a = Some (r, l) -> r = a_rows a) /\
  a_kargs a <> None /\ a_type a <> TOther /\ a_method a <> Some None.

(** The constraints and guesses used: as many as fit. *)
Definition constraints (a : eigsh_args V K) : list (list K) :=
  match a_lock a with Some (_, l) => firstn (Z.to_nat (a_rows a)) l | None => [] end.
Definition guesses (a : eigsh_args V K) : list (list K) :=
  match a_v0 a with Some (_, l) => firstn (Z.to_nat (a_k a)) l | None => [] end.
End Wanted.

(** The members that hold the values of enum primme_target. *)
Definition target_code (t : target) : Z :=
  match t with
  | smallest => 0 | largest => 1 | closest_geq => 2 | closest_leq => 3 | closest_abs => 4 | largest_abs => 5
  end%Z.

(** The type of the arrays of each routine (primme.h). *)
Definition element (r : routine) : dtype :=
  match r with sprimme => TFloat | dprimme => TDouble | cprimme => TComplex | zprimme => TComplexDouble end.
