(** Model of what the user's monitor is told by the eigensolver: monitorFun_Sprimme
    (src/eigs/auxiliary_eigs_normal.c 445-503), and its calls in main_iter
    (src/eigs/main_iter.c 592-595), prepare_candidates (main_iter.c 1598-1605),
    after the orthogonalisation (main_iter.c 775-783), in restart_locking
    (src/eigs/restart.c 1153-1163) and in inner_solve (src/eigs/inner_solve.c 551-588).

    The loops around the calls are those of SelectModel, LockModel and MainModel with the
    list of the reports added.  Real numbers are elements of any type [R]; [same] says
    that monitorFun_type is the working type, and [conv] is the conversion if it is not.
    A pointer is [None] when NULL; a cell is [None] when malloc left it unset.
    Not modelled: msg (always NULL here), time, the events message and profile, errors
    returned by the monitor, failures of malloc. *)
From Verif Require Import Base Values PermModel SelectModel RitzModel LockModel RestartModel MainModel.
From Coq Require Import List Arith ZArith Bool.
Import ListNotations.

Inductive event := outer_iteration | inner_iteration | converged | locked_pair.

Section Monitor.
Context {R : Type}.
Variable same : bool.
Variable conv : R -> R.
Variable nonneg : R -> bool.          (* x >= 0 *)
Variable minus_one zero : R.          (* -1.0, 0.0 *)

Definition ptr := option (list (option R)).
Definition arr := option (list R).

(** Num_matrix_astype with do_alloc = do_copy = 1 for a row of [n] numbers
    (src/linalg/auxiliary.c 79-142, Num_malloc in blaslapack.c 94-115). *)
Definition astype (x : arr) (n : Z) : ptr :=
  if same then option_map (map Some) x
  else if (n <=? 0)%Z then None
  else match x with
       | None => Some (repeat None (Z.to_nat n))
       | Some l => Some (map (fun v => Some (conv v)) (firstn (Z.to_nat n) l))
       end.

(** The arguments the monitor receives. *)
Record report := Rep {
  r_event : event;
  r_evals : ptr;  r_size : Z;  r_flags : option (list flag);
  r_iblock : option (list nat);  r_bsize : Z;  r_norms : ptr;  r_nconv : Z;
  r_levals : ptr;  r_nlocked : Z;  r_lflags : option (list flag);  r_lnorms : ptr;
  r_inner : option Z;  r_LSRes : ptr }.

(** monitorFun_Sprimme. *)
Definition monitorFun (ev : event) (basisEvals : arr) (basisSize : Z) (basisFlags : option (list flag))
    (iblock : option (list nat)) (blockSize : Z) (basisNorms : arr) (numConverged : Z)
    (lockedEvals : arr) (numLocked : Z) (lockedFlags : option (list flag)) (lockedNorms : arr)
    (inner_its : Z) (LSRes : R) : report :=
  Rep ev (astype basisEvals basisSize) basisSize basisFlags iblock blockSize
    (astype basisNorms basisSize) numConverged
    (astype lockedEvals numLocked) numLocked lockedFlags (astype lockedNorms numLocked)
    (if (0 <=? inner_its)%Z then Some inner_its else None)
    (if nonneg LSRes then astype (Some [LSRes]) 1 else None).

(** main_iter.c 592-595. *)
Definition outer_call (hVals : list R) (basisSize : nat) (flags : list flag) (iev : list nat)
    (blockSize : nat) (basisNorms : list R) (numConverged : Z) (evals : list R) (numLocked : nat)
    (lockedFlags : list flag) (resNorms : list R) : report :=
  monitorFun outer_iteration (Some hVals) (Z.of_nat basisSize) (Some flags) (Some iev)
    (Z.of_nat blockSize) (Some basisNorms) numConverged (Some evals) (Z.of_nat numLocked)
    (Some lockedFlags) (Some resNorms) (-1) minus_one.

(** main_iter.c 1601-1604 and 779-782: [iev] from the pair on. *)
Definition converged_call (hVals : list R) (basisSize : nat) (flags : list flag) (iev : list nat)
    (basisNorms : list R) (numConverged : Z) : report :=
  monitorFun converged (Some hVals) (Z.of_nat basisSize) (Some flags) (Some iev) 1
    (Some basisNorms) numConverged None 0 None None (-1) minus_one.

(** restart.c 1160-1162. *)
Definition locked_call (evals : list R) (numLocked : nat) (lockedFlags : list flag) (resNorms : list R) : report :=
  monitorFun locked_pair None 0 None None 0 None 0 (Some evals) (Z.of_nat numLocked)
    (Some lockedFlags) (Some resNorms) (-1) zero.

(** inner_solve.c 555-557 (adaptive stopping) and 585-587; [tau] is the residual norm of
    the linear system. *)
Definition inner_call (adaptive : bool) (eval norm : R) (numIts : nat) (tau : R) : report :=
  let m := if adaptive then (-1)%Z else 0%Z in
  monitorFun inner_iteration (Some [eval]) 1 (Some [UNCONVERGED]) (Some [0]) 1 (Some [norm]) m
    None m None None (Z.of_nat numIts) tau.

(* ------------------------------------------------------------------ *)
(** ** prepare_candidates with its reports; compare SelectModel. *)
Section Select.
Context {X : Type}.
Variable q : sel_in.
Variable verdict : nat -> nat -> flag -> R -> flag * R.
Variable resid : nat -> nat -> R.
Variable vec : nat -> X.
Variable side : nat -> nat -> bool.
Variable floor : R -> R.
Variable hVals : list R.

(** main_iter.c 1550-1635. *)
Fixpoint inner_r (r : nat) (fb : list flag) (blki : nat) (s : @sel R X) (tr : list report)
  : option (@sel R X * list report) :=
  match fb with
  | [] => Some (s, tr)
  | f :: fs =>
      if (Z.of_nat (s_bs s) <? s_max s)%Z then
        p <- get (s_iev s) blki;
        nm <- get (s_norms s) blki;
        flags' <- put (s_flags s) p f;
        bn' <- put (s_bnorms s) p nm;
        if side r p then
          inner_r r fs (S blki)
            (mkSel flags' bn' (s_iev s) (s_norms s) (s_xs s) (s_bs s) (s_rc s) (s_max s) (S p)) tr
        else if negb (is_unconverged f) && (s_rc s <? q_remained q)%Z &&
                ((Z.of_nat p <? q_numEvals q - q_numLocked q)%Z || one_sided (q_target q)) then
          let rc := (s_rc s + 1)%Z in
          inner_r r fs (S blki)
            (mkSel flags' bn' (s_iev s) (s_norms s) (s_xs s) (s_bs s) rc
               (Z.min (s_max s) (q_numEvals q + 1 - rc - q_numConverged q)) (S p))
            (tr ++ [converged_call hVals (q_basisSize q) flags' (skipn blki (s_iev s)) bn'
                      (q_numConverged q + rc)])
        else if is_unconverged f then
          norms' <- put (s_norms s) (s_bs s) nm;
          iev' <- put (s_iev s) (s_bs s) p;
          x <- get (s_xs s) blki;
          xs' <- put (s_xs s) (s_bs s) x;
          inner_r r fs (S blki)
            (mkSel flags' bn' iev' norms' xs' (S (s_bs s)) (s_rc s) (s_max s) (S p)) tr
        else
          inner_r r fs (S blki)
            (mkSel flags' bn' (s_iev s) (s_norms s) (s_xs s) (s_bs s) (s_rc s) (s_max s) (S p)) tr
      else Some (s, tr)
  end.

(** main_iter.c 1533-1702. *)
Fixpoint rounds_r (fuel r bns : nat) (s : @sel R X) (tr : list report)
  : option (@sel R X * list report) :=
  match fuel with
  | 0 => None
  | S fu =>
      if bns <=? q_cap q then
        b <- check_block verdict r (s_flags s) (s_iev s) (s_norms s) (s_bs s) bns;
        z1 <- inner_r r (fst b) (s_bs s)
                (mkSel (s_flags s) (s_bnorms s) (s_iev s) (snd b) (s_xs s)
                   (s_bs s) (s_rc s) (s_max s) (s_next s)) tr;
        let s1 := fst z1 in
        z <- find_next (s_flags s1) (s_max s1) (q_basisSize q - s_next s1) (s_next s1)
               (s_bs s1) (s_iev s1);
        let iev := fst z in let blki := snd z in
        let s2 := mkSel (s_flags s1) (s_bnorms s1) iev (s_norms s1) (s_xs s1)
                    (s_bs s1) (s_rc s1) (s_max s1) (s_next s1) in
        if (blki =? s_bs s1) || (q_remained q <=? s_rc s1)%Z then Some (s2, snd z1)
        else
          c <- compute_block resid vec r iev (s_norms s1) (s_xs s1) (s_bs s1) (blki - s_bs s1);
          nm <- floor_block floor (fst c) (s_bs s1) (blki - s_bs s1 - s_bs s1);
          rounds_r fu (S r) (blki - s_bs s1)
            (mkSel (s_flags s1) (s_bnorms s1) iev nm (snd c)
               (s_bs s1) (s_rc s1) (s_max s1) (s_next s1)) (snd z1)
      else None
  end.

Definition prepare_candidates_r (flags : list flag) (bnorms : list R) (iev : list nat)
           (norms : list R) (xs : list X) (bns : nat) : option (@sel R X * list report) :=
  rounds_r (S (S (q_basisSize q))) 0 bns
    (mkSel flags bnorms iev norms xs 0 0 (Z.of_nat (q_cap q)) 0) [].

(** main_iter.c 746-785, after the orthogonalisation of the block: [check] is the flag and
    the norm for block vector [i]; [nc] is numConverged. *)
Variable check : nat -> flag -> flag * R.
Fixpoint late_r (iev : list nat) (i cnt : nat) (numEvals : Z) (flags : list flag) (bnorms : list R)
    (nc : Z) (tr : list report) : option (list flag * list R * Z * list report) :=
  match cnt with
  | 0 => Some (flags, bnorms, nc, tr)
  | S c =>
      if (nc <? numEvals)%Z then
        p <- get iev i;
        f <- get flags p;
        let v := check i f in
        flags1 <- put flags p (fst v);
        bnorms1 <- put bnorms p (snd v);
        match fst v with
        | CONVERGED =>
            flags2 <- put flags1 p PRACTICALLY_CONVERGED;
            late_r iev (S i) c numEvals flags2 bnorms1 (nc + 1)
              (tr ++ [converged_call hVals (q_basisSize q) flags2 (skipn i iev) bnorms1 (nc + 1)])
        | _ => late_r iev (S i) c numEvals flags1 bnorms1 nc tr
        end
      else Some (flags, bnorms, nc, tr)
  end.
End Select.

(* ------------------------------------------------------------------ *)
(** ** restart_locking with its reports; compare LockModel. *)
Section Lock.
Context {X : Type} (o : vops R).

(** restart.c 1135-1173; lockedFlags is written before the report (1159). *)
Fixpoint lock_loop_r (t : target) (shifts : list R) (numEvals n0 k : nat)
         (flags : list flag) (st : @locked R R X) (tr : list report)
  : option (@locked R R X * list report) :=
  match flags with
  | [] => Some (st, tr)
  | f :: fs =>
      if negb (is_unconverged f) && (l_num st <? numEvals) then
        resNorm <- get (l_norms st) (n0 + k);
        norms1 <- put (l_norms st) (l_num st) resNorm;
        eval <- get (l_evals st) (l_num st);
        x <- get (l_evecs st) (n0 + k);
        evecs1 <- put (l_evecs st) (l_num st) x;
        flags1 <- put (l_flags st) (l_num st) f;
        let rep := locked_call (l_evals st) (S (l_num st)) flags1 norms1 in
        r <- insertionSort o t shifts eval (l_evals st) resNorm norms1 f
               flags1 (l_perm st) (l_num st) 0;
        let '(evals2, norms2, flags2, perm2) := r in
        lock_loop_r t shifts numEvals n0 (S k) fs
          (mkL evals2 norms2 flags2 perm2 evecs1 (S (l_num st))) (tr ++ [rep])
      else lock_loop_r t shifts numEvals n0 (S k) fs st tr
  end.

Definition lock_round_r (t : target) (shifts : list R) (numEvals : nat)
           (st : @locked R R X) (cands : list (@cand R R X)) (tr : list report)
  : option (@locked R R X * list report) :=
  evecs1 <- write_from (l_evecs st) (l_num st) (map c_vec cands);
  norms1 <- write_from (l_norms st) (l_num st) (map c_norm cands);
  r <- fill_evals (l_evals st) (l_num st) numEvals 0
         (map (fun c => (c_val c, c_flag c)) cands);
  lock_loop_r t shifts numEvals (l_num st) 0 (snd r)
    (mkL (fst r) norms1 (l_flags st) (l_perm st) evecs1 (l_num st)) tr.

Fixpoint lock_run_r (t : target) (shifts : list R) (numEvals : nat)
         (st : @locked R R X) (rounds : list (list (@cand R R X))) (tr : list report)
  : option (@locked R R X * list report) :=
  match rounds with
  | [] => Some (st, tr)
  | cs :: rest => z <- lock_round_r t shifts numEvals st cs tr;
                  lock_run_r t shifts numEvals (fst z) rest (snd z)
  end.
End Lock.
End Monitor.

(* ------------------------------------------------------------------ *)
(** ** The outer iterations (main_iter.c 517-595); compare MainModel: in a turn of the loop
    that expands the basis the monitor is called after numOuterIterations was raised
    (522) and numConverged (588). *)
Record outer_numbers := On { n_its : nat; n_conv : nat; n_size : nat; n_block : nat; n_locked : nat }.
Definition outer_reports (p : MainModel.params) (o : choice) (s : st) : list outer_numbers :=
  match pc s with
  | PBasis => if (bsz s <? p_maxBasis p) && under p s
              then [On (S (outer s)) (nc s + o_rc o) (bsz s) (o_blk o) (nl s)] else []
  | _ => []
  end.
(** The reports of a history. *)
Fixpoint reports_of (p : MainModel.params) (s : st) (h : list choice) : list outer_numbers :=
  match h with
  | [] => []
  | o :: h' => outer_reports p o s ++ reports_of p (step p o s) h'
  end.
