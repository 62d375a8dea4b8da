(** What main_iter may assume of the routines it calls.  Each line names the
    theorem of this development about the routine. *)
From Coq Require Import List Arith ZArith Bool Lia.
From Verif Require Import Base RestartModel MainModel.
Import ListNotations.

(** Products with B per vector: in one orthogonalisation at most, and with A and B in one
    inner iteration at most (C17_inner); they count like those with A. *)
Definition per_vector (p : params) : nat := if p_B p then p_ortho p else 0.
Definition per_inner (p : params) : nat := if p_B p then 3 else 1.

Record legal (p : params) (s : st) (o : choice) : Prop := {
  (* prepare_candidates: C24_selection, C24_limits *)
  l_blk : o_blk o <= avail p s;
  l_rc : o_rc o <= max_recent p s;
  l_both : nc s <= p_numEvals p -> o_blk o + o_rc o <= p_numEvals p - nc s + 1;
  (* inner_solve: C17_inner *)
  l_noinner : p_inner p = false -> o_inner o = 0;
  l_inner : o_inner o <= o_blk o * (per_inner p * (p_maxMatvecs p - mv s));
  (* Bortho_block: C27_bounded; a random vector is tried if nothing else was added *)
  l_gain : o_gain o <= Nat.max 1 (o_blk o);
  l_bmv : o_bmv o <= per_vector p * Nat.max 1 (o_blk o);
  l_bmv3 : o_bmv3 o <= per_vector p * bsz s;
  (* 491: estimateResidualError is zero until the next restart, so that it exceeds
     neither maxConvTol nor the norm of a residual *)
  l_tol : est s = false -> o_tol o = false;
  l_reset2 : est s = false -> o_reset2 o = false;
  (* restart: C13_soft_locking, C13_locking, C14_fits, C14_room *)
  l_nl : nl s <= o_nl o <= p_numEvals p;
  l_locking : p_locking p = true -> o_nc o = o_nl o;
  l_soft : p_locking p = false -> o_nl o = nl s /\ o_nc o <= p_numEvals p;
  l_bsz : o_bsz o <= bsz s;
  l_room : (p_locking p = true /\ p_maxBasis p < p_n p) \/ bsz s + nl s + p_noc p < p_n p -> o_failed o = 0 -> o_bsz o < p_maxBasis p;
  (* copy_back_candidates: C37_count *)
  l_copied : nc s <= p_numEvals p -> nc s <= o_copied o <= p_numEvals p;
  (* verify_norms: it tests that many pairs *)
  l_ver : o_ver o <= if under p s then nc s else p_numEvals p;
  l_bsz3 : o_bsz3 o <= bsz s
}.

(** A history of the iteration. *)
Inductive steps (p : params) : st -> list choice -> st -> Prop :=
| steps_nil : forall s, steps p s [] s
| steps_cons : forall s o h s',
    pc s <> PDone -> legal p s o -> steps p (step p o s) h s' -> steps p s (o :: h) s'.
