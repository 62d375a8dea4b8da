(** Model of how results reach the caller: copy_back_candidates, the end of
    main_iter without locking, the permutation at its end, and the conversions of
    wrapper_Sprimme. *)
From Coq Require Import List Arith ZArith Bool Lia.
From Verif Require Import Base.
Import ListNotations.

(** ** copy_back_candidates, src/eigs/main_iter.c 1743-1831 *)

Inductive side := Side_leq | Side_geq | Side_other.   (* primme->target *)

Section CopyBack.
Context {V : Type}.

(** One Ritz pair: hVals[i], and what Num_update_VWXR computes for it (1783-1799): the
    residual norm and the vector V*hVecs(:,i).  Exact arithmetic: real values are
    integers in some unit. *)
Record cand := Cand { c_val : Z; c_norm : Z; c_vec : V }.

(** evals, resNorms and the columns of evecs after the numOrthoConst first ones (1761). *)
Record out := Out { r_vals : list Z; r_norms : list Z; r_vecs : list V }.

(** 1783-1799: the block is written at [at_]. *)
Fixpoint write_block (b : list cand) (at_ : nat) (a : out) : option out :=
  match b with
  | [] => Some a
  | c :: t =>
      n <- put (r_norms a) at_ (c_norm c);
      v <- put (r_vecs a) at_ (c_vec c);
      write_block t (S at_) (Out (r_vals a) n v)
  end.

(** 1808-1811. *)
Definition ignored (g : side) (shift val norm : Z) : bool :=
  match g with
  | Side_leq => (shift <? val - norm)%Z
  | Side_geq => (val + norm <? shift)%Z
  | Side_other => false
  end.

(** 1803-1823: the loop over the block; [pos] is numConverged0+blki, [nc] is
    numConverged. *)
Fixpoint accept_block (g : side) (shift : Z) (b : list cand) (pos nc : nat) (a : out)
  : option (nat * out) :=
  match b with
  | [] => Some (nc, a)
  | c :: t =>
      r <- get (r_norms a) pos;
      if ignored g shift (c_val c) r then accept_block g shift t (S pos) nc a
      else
        e <- put (r_vals a) nc (c_val c);
        n <- put (r_norms a) nc r;
        x <- get (r_vecs a) pos;
        v <- put (r_vecs a) nc x;
        accept_block g shift t (S pos) (S nc) (Out e n v)
  end.

(** 1772-1824: the outer loop; [cs] are the pairs from the i-th on. *)
Fixpoint copy_loop (fuel : nat) (g : side) (shift : Z) (numEvals : nat) (cs : list cand)
  (nc : nat) (a : out) : option (nat * out) :=
  match fuel with
  | 0 => None
  | S f =>
      if (0 <? length cs) && (nc <? numEvals) then
        let k := Nat.min (numEvals - nc) (length cs) in
        a1 <- write_block (firstn k cs) nc a;
        r <- accept_block g shift (firstn k cs) nc nc a1;
        copy_loop f g shift numEvals (skipn k cs) (fst r) (snd r)
      else Some (nc, a)
  end.

(** 1826 *)
Fixpoint mark (k at_ : nat) (l : list Z) : option (list Z) :=
  match k with
  | 0 => Some l
  | S k' => l' <- put l at_ (-1)%Z; mark k' (S at_) l'
  end.

(** The whole function; [ret0] is *numRet before the call. *)
Definition copy_back (g : side) (shift : Z) (numEvals : nat) (cs : list cand) (nc ret0 : nat)
  (a : out) : option (nat * out) :=
  if (numEvals <=? nc) || (length cs =? 0) then Some (ret0, a)          (* 1757 *)
  else
    r <- copy_loop (S (length cs)) g shift numEvals cs nc a;
    n <- mark (numEvals - fst r) (fst r) (r_norms (snd r));
    Some (fst r, Out (r_vals (snd r)) n (r_vecs (snd r))).

End CopyBack.
Arguments cand : clear implicits.
Arguments out : clear implicits.

(** ** The permutation at the end, src/eigs/main_iter.c 1355-1357, on the flat memory
    of evecs.  permute_vecs_Sprimme is taken as what PermProofs proves of it: column i
    becomes the old column perm[i]; columns that stay are not touched.  An access
    outside the buffer gives [None]. *)
Section Flat.
Context {A : Type}.

Fixpoint read_col (m : nat) (buf : list A) (at_ : nat) : option (list A) :=
  match m with
  | 0 => Some []
  | S m' => x <- get buf at_; t <- read_col m' buf (S at_); Some (x :: t)
  end.
Fixpoint write_col (c : list A) (buf : list A) (at_ : nat) : option (list A) :=
  match c with
  | [] => Some buf
  | x :: t => b <- put buf at_ x; write_col t b (S at_)
  end.
Fixpoint permute_from (m ld base : nat) (old : list A) (perm : list nat) (i : nat) (buf : list A)
  : option (list A) :=
  match perm with
  | [] => Some buf
  | k :: t =>
      if k =? i then permute_from m ld base old t (S i) buf
      else
        c <- read_col m old ((base + k) * ld);
        b <- write_col c buf ((base + i) * ld);
        permute_from m ld base old t (S i) b
  end.
Definition permute_end (m ld base : nat) (perm : list nat) (buf : list A) : option (list A) :=
  permute_from m ld base buf perm 0 buf.
End Flat.

(** ** wrapper_Sprimme, src/eigs/primme_c.c 376-415 *)
Section Wrapper.
Context {U W : Type}.          (* what a value is in the caller's type and in the working type *)
Variable cin : U -> W.         (* the conversions *)
Variable cout : W -> U.
Variable junk : W.             (* contents of new memory *)

(** The arrays of the caller: evals, resNorms, and the columns of evecs. *)
Record user := User { u_vals : list U; u_norms : list U; u_vecs : list U }.
(** The arrays main_iter works on. *)
Record work := Work { w_vals : list W; w_norms : list W; w_vecs : list W }.

(** 376-392, types that differ: only evecs is copied, if it holds anything. *)
Definition copy_in (numEvals initSize numOrthoConst : nat) (u : user) : work :=
  Work (repeat junk numEvals) (repeat junk numEvals)
    (if 0 <? numOrthoConst + initSize
     then map cin (firstn (numOrthoConst + Nat.max numEvals initSize) (u_vecs u))
     else repeat junk (numOrthoConst + Nat.max numEvals initSize)).

(** Num_copy_Tmatrix of the [k] first entries of [src] from place [at_] on. *)
Definition overwrite (k at_ : nat) (src : list W) (dst : list U) : list U :=
  firstn at_ dst ++ map cout (firstn k (skipn at_ src)) ++ skipn (at_ + k) dst.

(** 403-415. *)
Definition copy_out (numRet numOrthoConst : nat) (w : work) (u : user) : user :=
  User (overwrite numRet 0 (w_vals w) (u_vals u))
       (overwrite numRet 0 (w_norms w) (u_norms u))
       (overwrite numRet numOrthoConst (w_vecs w) (u_vecs u)).

(** The call when the types differ; [iter] is main_iter: what it leaves in its
    arrays and the *numRet it reports. *)
Definition call (numEvals initSize numOrthoConst : nat) (iter : work -> work * nat) (u : user) : user :=
  let r := iter (copy_in numEvals initSize numOrthoConst u) in
  copy_out (snd r) numOrthoConst (fst r) u.
End Wrapper.
Arguments user : clear implicits.
Arguments work : clear implicits.
