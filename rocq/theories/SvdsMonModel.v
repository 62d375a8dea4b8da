(** Model of what the singular value solver reports to the caller's monitor and of its
    statistics, over the reals: src/svds/primme_svds_c.c UPDATE_STATS 53-72, the reset
    447-459, monitor_single_stage 1897-2002, monitor_stage1 2035-2138, monitor_stage2
    2171-2258 (without the prefix of profile messages, the conversions to other
    precisions and the absent arguments, which count as empty). *)
From Coq Require Import List ZArith Arith Reals Bool.
From Verif Require Import Base SvdsModel SvdsConvModel.
Import ListNotations.

(** ** Statistics. *)
Record stats := Stats {
  outer : Z; restarts : Z; matvecs : Z; preconds : Z; gsum : Z; bcast : Z; vgsum : Z; vbcast : Z;
  dots : R; elapsed : R; tmatvec : R; tprecond : R; tortho : R; tgsum : R; tbcast : R; locking_issue : Z }.

(** UPDATE_STATS with +=, 53-72 *)
Definition add_stats (s p : stats) : stats :=
  Stats (outer s + outer p) (restarts s + restarts p) (matvecs s + matvecs p * 2)
    (preconds s + preconds p) (gsum s + gsum p) (bcast s + bcast p) (vgsum s + vgsum p) (vbcast s + vbcast p)
    (dots s + dots p) (elapsed s + elapsed p) (tmatvec s + tmatvec p) (tprecond s + tprecond p)
    (tortho s + tortho p) (tgsum s + tgsum p) (tbcast s + tbcast p) (locking_issue s + locking_issue p).

(** 447-459: the broadcasts are not reset. *)
Definition reset_stats (s : stats) : stats :=
  Stats 0 0 0 0 0 (bcast s) 0 (vbcast s) 0 0 0 0 0 0 (tbcast s) 0.

(** The work the singular value solver does itself counts at once: [k] products, 1166, or
    a global sum of [v] numbers, 1479-1481 (times aside). *)
Inductive work := Product (k : Z) | GlobalSum (v : Z).
Definition do_work (s : stats) (w : work) : stats :=
  match w with
  | Product k => Stats (outer s) (restarts s) (matvecs s + k) (preconds s) (gsum s) (bcast s) (vgsum s)
      (vbcast s) (dots s) (elapsed s) (tmatvec s) (tprecond s) (tortho s) (tgsum s) (tbcast s) (locking_issue s)
  | GlobalSum v => Stats (outer s) (restarts s) (matvecs s) (preconds s) (gsum s + 1) (bcast s) (vgsum s + v)
      (vbcast s) (dots s) (elapsed s) (tmatvec s) (tprecond s) (tortho s) (tgsum s) (tbcast s) (locking_issue s)
  end.

(** What happens in a run of the eigensolver as far as these statistics matter: own work
    (in a convergence test) and reports, with the eigensolver's statistics at that time;
    the code of the monitor is nonzero if it fails, and then the statistics it saw stay
    (CHKERRA returns before they are restored).  The last component is what was seen. *)
Inductive event := Work (w : work) | Report (p : stats) (err : Z).
Definition happen (s : stats) (ev : event) : stats * list stats :=
  match ev with
  | Work w => (do_work s w, [])
  | Report p err => let seen := add_stats s p in (if (err =? 0)%Z then s else seen, [seen])
  end.
Fixpoint events (s : stats) (l : list event) : stats * list stats :=
  match l with
  | [] => (s, [])
  | ev :: t => let (s1, o1) := happen s ev in let (s2, o2) := events s1 t in (s2, o1 ++ o2)
  end.

(** A stage: own work before, the run, its statistics added (copy_last_params_to_svds
    881-882), own work after. *)
Record stage := Stage { before : list work; run : list event; final : stats; behind : list work }.
Definition do_stage (s : stats) (g : stage) : stats * list stats :=
  let s1 := fold_left do_work (before g) s in
  let (s2, o) := events s1 (run g) in
  (fold_left do_work (behind g) (add_stats s2 (final g)), o).
Definition do_call (s : stats) (gs : list stage) : stats :=
  fold_left (fun s g => fst (do_stage s g)) gs (reset_stats s).

(** ** Reports.  [None] is memory not written before it is shown. *)
Local Open Scope R_scope.
Inductive kind := KOuter | KInner | KRestart | KReset | KConverged | KLocked | KMessage | KProfile.

(** What the eigensolver tells: eigenvalues and residual norms of its basis and of the
    locked pairs, with the flags. *)
Record told := Told { t_evals : list R; t_norms : list R; t_flags : list Z; t_block : list nat;
                      t_conv : nat; t_levals : list R; t_lnorms : list R; t_lflags : list Z; t_kind : kind }.
Record report := Report_ { p_svals : list (option R); p_norms : list R; p_flags : list Z;
                      p_block : list (option nat); p_size : nat; p_conv : nat; p_lsvals : list (option R);
                      p_lnorms : list R; p_lflags : list Z; p_kind : kind; p_stage : nat }.

Definition sval (l : R) : R := sqrt (Rabs l).
(** The residual norm shown for the eigensolver's norm [r] and the value [s]. *)
Definition over (r s : R) : R := if lt 0 s then r / s else r.

(** monitor_single_stage, 1926-1970 *)
Definition single_stage (m : operator) (t : told) : report :=
  match m with
  | OpAug =>
      Report_ (map (fun _ => None) (t_evals t)) (map (fun r => r / sqrt 2) (t_norms t)) (t_flags t)
        (map Some (t_block t)) (length (t_block t)) (t_conv t)
        (map (fun _ => None) (t_levals t)) (map (fun r => r / sqrt 2) (t_lnorms t)) (t_lflags t) (t_kind t) 0
  | _ =>
      Report_ (map (fun l => Some (sval l)) (t_evals t))
        (map (fun p => over (fst p) (sval (snd p))) (combine (t_norms t) (t_evals t))) (t_flags t)
        (map Some (t_block t)) (length (t_block t)) (t_conv t)
        (map (fun l => Some (sval l)) (t_levals t))
        (map (fun p => over (fst p) (sval (snd p))) (combine (t_lnorms t) (t_levals t))) (t_lflags t) (t_kind t) 0
  end.

(** monitor_stage1, 2050-2108: the locked pairs come first.  Both loops divide by
    basisSvals[i], with [i] the index in the source; it is at most [j], the index in the
    target, so it has been written. *)
Definition stage1 (locking : bool) (printLevel : nat) (t : told) : option report :=
  if match t_kind t with KConverged => true | _ => false end && locking && (printLevel <=? 4)%nat
  then None
  else
    let n := length (t_levals t) in
    let svals := map sval (t_levals t ++ t_evals t) in
    let norms rs := map (fun p => over (fst p) (nth (snd p) svals 0)) (combine rs (seq 0 (length rs))) in
    let block0 := map (fun b => Some (b + n)%nat) (t_block t) in
    let block1 := match block0 with [] => [None] | _ => block0 end in
    let locked := match t_kind t with KLocked => true | _ => false end in
    Some (Report_ (map Some svals) (norms (t_lnorms t) ++ norms (t_norms t)) (t_lflags t ++ t_flags t)
      (if locked then Some (n - 1)%nat :: tl block1 else block1) (length (t_block t)) (t_conv t)
      [] [] [] (if locked then KConverged else t_kind t) 0).

(** CONVERGED, src/eigs/common_eigs.h 41-46 *)
Definition converged : Z := 2.

(** monitor_stage2, 2184-2223.  [svals] and [norms] are the arrays of the caller's results
    (whose first [extra] entries are the triplets of the first stage); lockedEvals and
    lockedNorms are moved back by [extra] entries, which is out of the array unless they
    point into those ([inside]). *)
Definition stage2 (inside : bool) (extra : nat) (svals norms : list R) (t : told) : option report :=
  let lsv := if inside then Some (firstn extra svals ++ t_levals t)
             else if (extra =? 0)%nat then Some (t_levals t) else None in
  match lsv with
  | None => None
  | Some lsv =>
    Some (Report_ (map Some (t_evals t)) (map (fun r => r / sqrt 2) (t_norms t)) (t_flags t)
      (map Some (t_block t)) (length (t_block t)) (t_conv t)
      (map Some lsv) (firstn extra norms ++ map (fun r => r / sqrt 2) (t_lnorms t))
      (repeat converged extra ++ t_lflags t) (t_kind t) 1)
  end.
