(** What the MATLAB function primme_eigs promises, independently of its code. *)
From Coq Require Import String List.
From Verif Require Import SpecR.
Import ListNotations.

(** The documented forms of a call: a matrix or a function, perhaps a mass matrix or function, the
    dimension when one of the two is a function, and then any number of the further arguments in
    their order. *)
Record call (X : Type) := Call {
  c_A : X;
  c_B : option X;
  c_dim : option X;       (** given exactly when [c_A] or [c_B] is a function *)
  c_rest : list X         (** the number of values, target, options, method and two preconditioners *)
}.
Arguments Call {X}. Arguments c_A {X}. Arguments c_B {X}. Arguments c_dim {X}. Arguments c_rest {X}.

Definition maybe {X} (o : option X) : list X := match o with Some x => [x] | None => [] end.
Definition written {X} (c : call X) : list X := c_A c :: maybe (c_B c) ++ maybe (c_dim c) ++ c_rest c.

(** The documented names of the targets. *)
Local Open Scope string_scope.
Definition mat_target (s : string) : option looks_for :=
  if string_dec s "LA" then Some Largest
  else if string_dec s "SA" then Some Smallest
  else if string_dec s "LM" then Some LargestMagnitude
  else if string_dec s "SM" then Some Closest
  else if string_dec s "CGT" then Some ClosestAbove
  else if string_dec s "CLT" then Some ClosestBelow
  else None.

(** The constants of the C interface that stand for them. *)
Definition constant_of (t : looks_for) : string :=
  match t with
  | Largest => "primme_largest"
  | Smallest => "primme_smallest"
  | LargestMagnitude => "primme_largest_abs"
  | Closest => "primme_closest_abs"
  | ClosestAbove => "primme_closest_geq"
  | ClosestBelow => "primme_closest_leq"
  end.
