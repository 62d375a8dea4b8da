(** Model of the in-place permutation of vectors,
    src/linalg/auxiliary.c 716-793 (permute_vecs_Sprimme) and 797-870
    (permute_vecs_iprimme).

    Simplification: a column of the matrix is one element of an arbitrary
    type; Num_copy_Sprimme(m, src, dst) is one element copy.  The leading
    dimension only places columns, so columns are disjoint (ld >= m is the
    documented requirement).  Out-of-range accesses give [None]; the
    assertions 786-787 are the [check] at the end ([None] if they fail). *)
From Verif Require Import Base.
From Coq Require Import List Arith Bool.
Import ListNotations.

Section Perm.
Context {A : Type}.

(** Lines 752-755: skip positions already in place. *)
Fixpoint skip_fixed (fuel : nat) (perm : list nat) (n cur : nat) : option nat :=
  match fuel with
  | 0 => None
  | S f =>
      if cur <? n then
        k <- get perm cur;
        if k =? cur then skip_fixed f perm n (S cur) else Some cur
      else Some cur
  end.

(** Lines 768-780: follow one cycle starting at [cur] with the hole at
    [dest]; [buf] is rwork. *)
Fixpoint cycle (fuel : nat) (vecs : list A) (perm : list nat)
         (cur dest : nat) (buf : A) : option (list A * list nat) :=
  match fuel with
  | 0 => None
  | S f =>
      source <- get perm dest;
      if source =? cur then
        vecs' <- put vecs dest buf;
        perm' <- put perm dest dest;
        Some (vecs', perm')
      else
        v <- get vecs source;
        vecs' <- put vecs dest v;
        perm' <- put perm dest dest;
        cycle f vecs' perm' cur source buf
  end.

(** Lines 749-783: the outer loop. *)
Fixpoint permute_loop (fuel : nat) (vecs : list A) (perm : list nat)
         (n cur : nat) : option (list A * list nat) :=
  match fuel with
  | 0 => None
  | S f =>
      c <- skip_fixed (S n) perm n cur;
      if n <=? c then Some (vecs, perm)
      else
        buf <- get vecs c;
        r <- cycle (S n) vecs perm c c buf;
        permute_loop f (fst r) (snd r) n (S c)
  end.

(** Lines 785-787: every entry of the working copy is in place. *)
Definition check (perm : list nat) (n : nat) : bool :=
  forallb (fun i => match get perm i with Some k => k =? i | None => false end)
          (seq 0 n).

(** The whole routine: permute the first [n] vectors. *)
Definition permute_vecs (vecs : list A) (n : nat) (perm_ : list nat)
  : option (list A) :=
  r <- permute_loop (S n) vecs (firstn n perm_) n 0;
  if check (snd r) n then Some (fst r) else None.

(** Num_compact_vecs_Sprimme (auxiliary.c 897-913) with avoidCopy = 0 and a
    separate destination of at least n columns: copy column perm[i] of vecs
    to column i of work. *)
Fixpoint compact_copy (vecs : list A) (perm : list nat) (i : nat)
         (work : list A) : option (list A) :=
  match perm with
  | [] => Some work
  | k :: t =>
      v <- get vecs k;
      w <- put work i v;
      compact_copy vecs t (S i) w
  end.

(** The same routine when vecs and work are the same buffer, as in the
    compaction of hVecs and hVals (restart.c): each copy reads the current
    content. *)
Fixpoint compact_inplace (buf : list A) (perm : list nat) (i : nat)
  : option (list A) :=
  match perm with
  | [] => Some buf
  | k :: t =>
      v <- get buf k;
      b <- put buf i v;
      compact_inplace b t (S i)
  end.

(** Line 904: are the indices consecutive?  [None] models the read of
    perm[0] at line 905 when n = 0. *)
Fixpoint consecutive (perm : list nat) : bool :=
  match perm with
  | a :: ((b :: _) as t) => (S a =? b) && consecutive t
  | _ => true
  end.

Definition compact_avoid (perm : list nat) : option (option nat) :=
  if consecutive perm then
    k <- get perm 0; Some (Some k)   (* reference to column k of vecs *)
  else Some None.                    (* falls through to the copy *)

(** The whole routine, lines 897-913: the array returned, from the column on it
    points to, and the content of work afterwards. *)
Definition compact_vecs (vecs : list A) (perm : list nat) (work : list A) (avoid : bool)
  : option (list A * list A) :=
  r <- (if avoid then compact_avoid perm else Some None);
  match r with
  | Some k => Some (skipn k vecs, work)
  | None => w <- compact_copy vecs perm 0 work; Some (w, w)
  end.

End Perm.
