(** The reports of the inner solver (inner_solve.c 311-637) over a whole call, on top of the
    model of its phases. *)
From Coq Require Import List Arith Lia Bool.
From Verif Require Import Base InnerModel.
Import ListNotations.

(** 424-594: the systems that none of the tests stopped are reported, in the order of the
    block, with the number of the iteration (551-558 and 582-588); [fin] are the outcomes. *)
Fixpoint reported (fin : list bool) (sysl : list nat) (it : nat) : list (nat * nat) :=
  match fin, sysl with
  | false :: fin, x :: sysl => (x, it) :: reported fin sysl it
  | true :: fin, _ :: sysl => reported fin sysl it
  | _, _ => []
  end.

(** 311-637: [h] are the outcomes of the two groups of tests of each iteration; the result has
    the number of iterations completed and the reports.  Errors of callbacks are not modelled. *)
Fixpoint inner_run (nx max it : nat) (h : list (list bool * list bool)) (s : inner)
  : option (inner * nat * list (nat * nat)) :=
  match h with
  | [] => Some (s, it, [])
  | (f1, f2) :: h' =>
    if (it <? max) && (0 <? bs s) then
      if length f1 =? bs s then
        s1 <- phase nx f1 s ;
        if bs s1 =? 0 then Some (s1, it, [])                 (* 371 *)
        else if length f2 =? bs s1 then
          s2 <- phase nx f2 s1 ;
          r <- inner_run nx max (S it) h' s2 ;
          Some (fst r, reported f2 (sys s1) it ++ snd r)
        else None
      else None
    else Some (s, it, [])
  end.
