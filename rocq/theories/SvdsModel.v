(** Model of how the singular value solver hands its vectors to the eigensolver and
    takes them back: copy_last_params_from_svds and copy_last_params_to_svds,
    src/svds/primme_svds_c.c 546-1021, as far as the array svecs is concerned.

    The array is one flat checked list of [noc + max(initSize, numSvals)] columns of
    mLocal + nLocal entries (the size documented for svecs); an access out of it gives
    [None].  The eigensolver, the products with the matrix and the arithmetic on the
    entries are parameters.  Allocation and error returns are not modelled. *)
From Coq Require Import List Arith Bool Lia.
From Verif Require Import Base CopyModel.
Import ListNotations.

Inductive operator := OpNone | OpAtA | OpAAt | OpAug.   (* primme_svds_operator *)

Section Layout.
Context {A : Type}.

Definition read_at (mem : list A) (p len : nat) : option (list A) :=
  if p + len <=? length mem then Some (firstn len (skipn p mem)) else None.
Definition write_at (mem : list A) (p : nat) (l : list A) : option (list A) :=
  if p + length l <=? length mem
  then Some (firstn p mem ++ l ++ skipn (p + length l) mem) else None.

(** [n] columns of [m] entries, [ld] apart; Num_copy_matrix between two different
    arrays reads them all from the first and writes them all into the second. *)
Fixpoint read_cols (mem : list A) (p m ld n : nat) : option (list (list A)) :=
  match n with
  | 0 => Some []
  | S k => c <- read_at mem p m; t <- read_cols mem (p + ld) m ld k; Some (c :: t)
  end.
Fixpoint write_cols (mem : list A) (p ld : nat) (cs : list (list A)) : option (list A) :=
  match cs with
  | [] => Some mem
  | c :: t => mem' <- write_at mem p c; write_cols mem' (p + ld) ld t
  end.

Fixpoint mapi {B C} (f : nat -> B -> C) (i : nat) (l : list B) : list C :=
  match l with [] => [] | x :: t => f i x :: mapi f (S i) t end.

(** The sizes: primme_svds->mLocal, nLocal, numOrthoConst, initSize on entry of the
    stage, numSvals. *)
Record dims := Dims { mL : nat; nL : nat; noc : nat; init : nat; nsv : nat }.

(** 616-618 and 906-907. *)
Definition nMax (d : dims) : nat := Nat.max (init d) (nsv d) + noc d.

(** primme->nLocal, primme_svds_interface.c 352-369 (when the caller leaves it). *)
Definition eigLocal (m : operator) (d : dims) : nat :=
  match m with OpAtA => nL d | OpAAt => mL d | OpAug => mL d + nL d | OpNone => 0 end.

(** The scaling of 642-643 and 957-958. *)
Variables (down up : A -> A).

(** 619-650: where the eigensolver's vectors begin in svecs, and svecs after. *)
Definition from_svds (m : operator) (d : dims) (mem : list A) : option (nat * list A) :=
  let n := init d + noc d in
  match m with
  | OpNone => Some (0, mem)
  | OpAtA | OpAAt =>
      mem' <- exec mem (copy_matrix (mL d * n) (nL d)
                (match m with OpAtA => n | _ => noc d end) (nL d) (nMax d * mL d) (nL d));
      Some (match m with OpAtA => nMax d * mL d | _ => 0 end, mem')
  | OpAug =>
      let l := mL d + nL d in
      aux <- read_at mem 0 (l * n);
      vs <- read_cols aux (mL d * n) (nL d) (nL d) n;
      m1 <- write_cols mem 0 l vs;
      us <- read_cols aux 0 (mL d) (mL d) n;
      m2 <- write_cols m1 (nL d) l us;
      c <- read_at m2 0 (l * noc d);
      m3 <- write_at m2 0 (map down c);
      Some (0, m3)
  end.

(** What the products and the divisions of 914-925 and 935-948 make of the [i]-th
    vector, and the division of 974-996 by the norm of a left or right vector.  They
    depend on [i] since the singular values and the parts on other processes do. *)
Variables (Av Atu : nat -> list A -> list A).
Variables (unitU unitV : nat -> list A -> list A).

(** 904-1000: svecs after the stage; [k] is what the eigensolver found. *)
Definition to_svds (m : operator) (d : dims) (k : nat) (mem : list A) : option (list A) :=
  let n := k + noc d in
  match m with
  | OpNone => Some mem
  | OpAtA =>
      vs <- read_cols mem (mL d * nMax d + eigLocal m d * noc d) (nL d) (nL d) k;
      m1 <- write_cols mem (mL d * noc d) (mL d) (mapi Av 0 vs);
      exec m1 (copy_matrix (mL d * nMax d) (nL d) n (nL d) (mL d * n) (nL d))
  | OpAAt =>
      m1 <- exec mem (copy_matrix (mL d * nMax d) (nL d) (noc d) (nL d) (mL d * n) (nL d));
      us <- read_cols m1 (mL d * noc d) (mL d) (mL d) k;
      write_cols m1 (mL d * n + eigLocal m d * noc d) (nL d) (mapi Atu 0 us)
  | OpAug =>
      let l := mL d + nL d in
      c <- read_at mem 0 (l * noc d);
      m0 <- write_at mem 0 (map up c);
      aux <- read_at m0 0 (l * n);
      vs <- read_cols aux 0 (nL d) l n;
      m1 <- write_cols m0 (mL d * n) (nL d) vs;
      us <- read_cols aux (nL d) (mL d) l n;
      m2 <- write_cols m1 0 (mL d) us;
      us' <- read_cols m2 0 (mL d) (mL d) n;
      m3 <- write_cols m2 0 (mL d) (mapi unitU 0 us');
      vs' <- read_cols m3 (mL d * n) (nL d) (nL d) n;
      write_cols m3 (mL d * n) (nL d) (mapi unitV 0 vs')
  end.

End Layout.
