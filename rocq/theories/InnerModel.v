(** Model of the bookkeeping of src/eigs/inner_solve.c: how the systems of the
    block that finish are put aside, and what each array holds afterwards.

    An array of columns is modelled by the system each column belongs to.  The
    numbers themselves are not modelled: which systems finish in each phase is an
    arbitrary input. *)
From Coq Require Import List Arith Lia Bool.
From Verif Require Import Base PermModel.
Import ListNotations.

(** perm_set_value_on_pos, inner_solve.c 913-925: scan p[0..n-1] for val. *)
Fixpoint perm_scan (k i : nat) (p : list nat) (val pos : nat) : option (list nat) :=
  match k with
  | 0 => None                                                  (* return -1 *)
  | S k' =>
    x <- get p i ;
    if x =? val then
      y <- get p pos ; p1 <- put p i y ; put p1 pos val        (* 918-920 *)
    else perm_scan k' (S i) p val pos
  end.
Definition perm_set (p : list nat) (val pos n : nat) : option (list nat) :=
  perm_scan n 0 p val pos.

(** The loops of 321-353 and 425-594 reduced to their effect on p0 and conv:
    [fin] says for each position i whether its system leaves the block. *)
Fixpoint mark (fin : list bool) (i conv n : nat) (p0 : list nat)
  : option (list nat * nat) :=
  match fin with
  | [] => Some (p0, conv)
  | true :: rest => p1 <- perm_set p0 i (n - S conv) n ; mark rest (S i) (S conv) n p1
  | false :: rest => mark rest (S i) conv n p0
  end.

(** What is at each position.  [sys] is the array p; [moved] are the arrays
    permuted once: shift, xKinvBx, g, d, delta, r and sol (356-370); [xcol] is x;
    [bxcol] is LprojectorBX, which is not permuted. *)
Record inner := Inner {
  bs : nat; sys : list nat; moved : list (list nat); xcol : list nat; bxcol : list nat
}.

Fixpoint permute_all (arrs : list (list nat)) (n : nat) (p0 : list nat)
  : option (list (list nat)) :=
  match arrs with
  | [] => Some []
  | a :: t => a' <- permute_vecs a n p0 ; t' <- permute_all t n p0 ; Some (a' :: t')
  end.

Fixpoint permute_times (m : nat) (a : list nat) (n : nat) (p0 : list nat)
  : option (list nat) :=
  match m with
  | 0 => Some a
  | S m' => a' <- permute_vecs a n p0 ; permute_times m' a' n p0
  end.

(** How often one column of x is moved in one phase (362-364, 366): once as x,
    once more as LprojectorX if that is x (correction.c 918-936: LeftX with more
    than one system, or without LeftQ), and once more as RprojectorX if that is x
    (correction.c 975-978: RightX, no skew preconditioner and no B, when Bx = x). *)
Definition x_moves (leftQ leftX rightX skew hasB : bool) (block0 : nat) : nat :=
  1 + (if leftX && (negb leftQ || (1 <? block0)) then 1 else 0)
    + (if rightX && negb skew && negb hasB then 1 else 0).

(** 321-372 and 424-611: one phase; [nx] is the number of times x is moved. *)
Definition phase (nx : nat) (fin : list bool) (s : inner) : option inner :=
  m <- mark fin 0 0 (bs s) (seq 0 (bs s)) ;
  let '(p0, conv) := m in
  sys' <- permute_vecs (sys s) (bs s) p0 ;
  mv' <- permute_all (moved s) (bs s) p0 ;
  x' <- permute_times nx (xcol s) (bs s) p0 ;
  Some (Inner (bs s - conv) sys' mv' x' (bxcol s)).

(** 309: every system starts at its own position. *)
Definition inner_start (n arrays : nat) : inner :=
  Inner n (seq 0 n) (repeat (seq 0 n) arrays) (seq 0 n) (seq 0 n).

(** Any number of phases; a phase ranges over the systems still active. *)
Fixpoint phases (nx : nat) (h : list (list bool)) (s : inner) : option inner :=
  match h with
  | [] => Some s
  | fin :: h' =>
    if length fin =? bs s then s' <- phase nx fin s ; phases nx h' s' else None
  end.

(** Num_dist_dots_real at 318, 373 and 622 write the scalars of the systems by
    position: entry i receives the value of the system at position i computed in
    iteration [it].  Entries are modelled as (system, iteration). *)
Fixpoint dots (k i it : nat) (sysl : list nat) (a : list (nat * nat))
  : option (list (nat * nat)) :=
  match k with
  | 0 => Some a
  | S k' => x <- get sysl i ; a' <- put a i (x, it) ; dots k' (S i) it sysl a'
  end.

(** ... and 323-340, 377-383, 624-632 read them by system: entry p[i]. *)
Definition read_scalar (s : inner) (a : list (nat * nat)) (i : nat) : option (nat * nat) :=
  k <- get (sys s) i ; get a k.

(** 256-268: the limit of inner iterations; [maxInner] <= 0 means none and
    [maxMatvecs] <= 0 stands for INT_MAX. *)
Definition max_iterations (intmax maxMatvecs numMatvecs maxInner : nat) : nat :=
  let m := if maxMatvecs =? 0 then intmax else maxMatvecs - numMatvecs in
  if maxInner =? 0 then m else Nat.min maxInner m.

(** 311-659: the loop as a count of operator applications.  Iteration numIts
    applies the operator to the [bs] active systems (313), the first phase removes
    [a] systems and the second one [b]; [drop k] is (a, b) for iteration k.
    [per_iteration]: the product with A (848), with B if there is one (858), and once more
    with B for the norm of the solution in the adaptive tests (186-190, 416-418); each
    adds to stats.numMatvecs (auxiliary_eigs.c 227, 294). *)
Definition per_iteration (mass adaptive : bool) : nat :=
  1 + (if mass then 1 else 0) + (if mass && adaptive then 1 else 0).
Fixpoint inner_matvecs (per fuel numIts block : nat) (drop : nat -> nat * nat) : nat :=
  match fuel with
  | 0 => 0
  | S f =>
    if block =? 0 then 0
    else per * block + inner_matvecs per f (S numIts)
                   (block - fst (drop numIts) - snd (drop numIts)) drop
  end.
Definition inner_cost (mass adaptive : bool) (maxIterations block : nat) (drop : nat -> nat * nat) : nat :=
  inner_matvecs (per_iteration mass adaptive) maxIterations 0 block drop.
