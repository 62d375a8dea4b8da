(** Model of the moves a restart with locking makes after the vectors were updated:
    compute_residual_columns (src/eigs/restart.c 2464-2536) and the rest of
    restart_locking (restart.c 959-1172) that moves columns, norms and the
    matrices VtBV and H.

    Memory of a process as in VwxrModel: array, column, row; arrays 0 V, 1 W, 2 BV,
    3 evecs, 4 Bevecs.  A read of an index list past its end and a failed assertion
    give [None].  Not modelled: failures of malloc, floating point rounding, the
    monitor, the ordered insertion of the locked values (LockModel). *)
From Coq Require Import List Arith Bool.
From Verif Require Import Base Values ProjModel MatAlg RestartModel VwxrModel.
Import ListNotations.

Section Move.
Context {K : Type} (o : scal K).
Variable pbs : nat.          (* PRIMME_BLOCK_SIZE *)

Definition in_rows (k M r : nat) : bool := (k <=? r) && (r <? k + M).
Definition in_cols (d : ptr) (n a c : nat) : bool :=
  (a =? Datatypes.fst d) && (Datatypes.snd d <=? c) && (c <? Datatypes.snd d + n).

(** Num_copy_matrix(&x[k], M, n, ld, &y[k], ld): columns to the left or apart (C30). *)
Definition cpn (s d : ptr) (n k M : nat) (mem : @memory K) : memory :=
  fun a c r => if in_cols d n a c && in_rows k M r
               then mem (Datatypes.fst s) (Datatypes.snd s + (c - Datatypes.snd d)) r else mem a c r.
(** Num_copy_matrix(&x[k], M, 1, ld, &X0[id*M], M) *)
Definition put_col (b : @buffer K) (id : nat) (f : nat -> K) : buffer :=
  fun c r => if c =? id then f r else b c r.
(** Num_copy_matrix(X0, M, nd, M, &xd[k], ld) *)
Definition flush (b : @buffer K) (d : ptr) (nd k M : nat) (mem : @memory K) : memory :=
  fun a c r => if in_cols d nd a c && in_rows k M r then b (c - Datatypes.snd d) (r - k) else mem a c r.
Definition col (p : ptr) (j : nat) : ptr := (Datatypes.fst p, Datatypes.snd p + j).
Definition rows_of (mem : @memory K) (p : ptr) (k : nat) : nat -> K :=
  fun r => mem (Datatypes.fst p) (Datatypes.snd p) (k + r).

(** The arguments of compute_residual_columns; None is NULL. *)
Record args := Args {
  g_vals : nat -> K; g_x : ptr; g_Bx : option ptr; g_n : nat; g_p : list nat; g_Ax : ptr;
  g_xo : ptr; g_Bxo : option ptr; g_no : nat; g_io0 : nat; g_ro : ptr;
  g_xd : ptr; g_Bxd : option ptr; g_nd : nat; g_pd : list nat; g_rd : ptr }.

Record inner := Inn { n_mem : @memory K; n_X : @buffer K; n_BX : @buffer K; n_R : @buffer K;
                     n_i : nat; n_id : nat; n_io : nat }.

(** 2492: pd[id] == io+io0, read only for id < nd and io < no. *)
Definition takes_old (g : args) (s : inner) : option bool :=
  if (n_id s <? g_nd g) && (n_io s <? g_no g)
  then e <- get (g_pd g) (n_id s) ; Some (e =? n_io s + g_io0 g)
  else Some false.

(** 2493-2524: the body of the loop over the columns.  The buffer of the products
    with B is there when Bxo is (2487). *)
Definition body (g : args) (k M : nat) (s : inner) : option inner :=
  t <- takes_old g s ;
  if (t : bool) then
    Some (Inn (n_mem s)
      (put_col (n_X s) (n_id s) (rows_of (n_mem s) (col (g_xo g) (n_io s)) k))
      (match g_Bxo g with
       | Some b => put_col (n_BX s) (n_id s) (rows_of (n_mem s) (col b (n_io s)) k)
       | None => n_BX s end)
      (put_col (n_R s) (n_id s) (rows_of (n_mem s) (col (g_ro g) (n_io s)) k))
      (n_i s) (S (n_id s)) (S (n_io s)))
  else if (g_nd g <=? n_id s) || (n_i s <? g_n g) then                    (* assert, 2504 *)
    p <- get (g_p g) (n_i s) ;
    let m1 := cpn (col (g_x g) p) (col (g_x g) (n_i s)) 1 k M (n_mem s) in
    let m2 := match g_Bx g with
              | Some b => cpn (col b p) (col b (n_i s)) 1 k M m1 | None => m1 end in
    let m3 := cpn (col (g_Ax g) p) (col (g_Ax g) (n_i s)) 1 k M m2 in
    if n_id s <? g_nd g then
      match g_Bx g, g_Bxo g with
      | Some _, None => None                                              (* BX0 is NULL *)
      | _, _ =>
        Some (Inn m3
          (put_col (n_X s) (n_id s) (rows_of m3 (col (g_x g) p) k))
          (match g_Bx g with
           | Some b => put_col (n_BX s) (n_id s) (rows_of m3 (col b p) k) | None => n_BX s end)
          (put_col (n_R s) (n_id s) (fun r =>
             ksub o (rows_of m3 (col (g_Ax g) p) k r)
               (kmul o (g_vals g p)
                  (rows_of m3 (col (match g_Bx g with Some b => b | None => g_x g end) p) k r))))
          (S (n_i s)) (S (n_id s)) (n_io s))
      end
    else Some (Inn m3 (n_X s) (n_BX s) (n_R s) (S (n_i s)) (S (n_id s)) (n_io s))
  else None.

(** 2491: for (i=id=io=0; i < n || id < nd; id++) *)
Fixpoint columns (fuel : nat) (g : args) (k M : nat) (s : inner) : option inner :=
  if (n_i s <? g_n g) || (n_id s <? g_nd g) then
    match fuel with
    | 0 => None
    | S f => s' <- body g k M s ; columns f g k M s'
    end
  else Some s.

(** 2490-2531: one piece of M rows. *)
Definition piece_of (g : args) (k M : nat) (mem : @memory K) : option memory :=
  let z := fun _ _ : nat => k0 o in
  s <- columns (g_n g + g_nd g) g k M (Inn mem z z z 0 0 0) ;
  if g_nd g <=? n_id s then                                               (* assert, 2526 *)
    let m1 := flush (n_X s) (g_xd g) (g_nd g) k M (n_mem s) in
    let m2 := match g_Bxd g with
              | Some b => flush (n_BX s) b (g_nd g) k M m1 | None => m1 end in
    Some (flush (n_R s) (g_rd g) (g_nd g) k M m2)
  else None.

(** 2490: for (k=0; k<m; k+=M, M=min(M,m-k)) *)
Fixpoint row_pieces (fuel : nat) (g : args) (m k M : nat) (mem : @memory K) : option memory :=
  if k <? m then
    match fuel with
    | 0 => None
    | S f => mem' <- piece_of g k M mem ; row_pieces f g m (k + M) (Nat.min M (m - (k + M))) mem'
    end
  else Some mem.

Definition compute_residual_columns (g : args) (m : nat) (mem : @memory K) : option memory :=
  if g_n g =? 0 then                                                      (* 2474-2482 *)
    let c := Nat.min (g_no g) (g_nd g) in
    let m1 := cpn (g_xo g) (g_xd g) c 0 m mem in
    m2 <- (match g_Bxd g with
           | Some b => bo <- g_Bxo g ; Some (cpn bo b c 0 m m1)
           | None => Some m1 end) ;
    Some (cpn (g_ro g) (g_rd g) c 0 m m2)
  else row_pieces m g m 0 (Nat.min m pbs) mem.

(** restart.c 1051-1055: the call; [rs] is *restartSize = left+numPacked, [sb]
    sizeBlockNorms, [nd] maxBlockSize. *)
Definition merge_args (hasB : bool) (left rs failed sb nd : nat) (ifl perm : list nat) (vals : nat -> K) : args :=
  let b (c : nat) : option ptr := if hasB then Some (2, c) else None in
  Args (fun j => vals (left + j)) (0, left) (b left) failed ifl (1, left)
    (0, rs) (b rs) sb 0 (1, rs)
    (0, left + failed) (b (left + failed)) nd perm (1, left + failed).

(** ** The rest of restart_locking. *)

(** 962-970: what exceeds numEvals stays in the basis; [room] is numEvals-numLocked. *)
Fixpoint settle (room : nat) (fl : list flag) : list flag :=
  match fl with
  | [] => []
  | f :: t => if negb (is_unconverged f) && (0 <? room) then f :: settle (room - 1) t
              else UNCONVERGED :: settle room t
  end.

(** 881-889 and 996-1000: sizes of the block before and after the merge. *)
Definition block_max (restartSize maxBlockSize numEvals numConverged : nat) : nat :=
  Nat.min (Nat.min restartSize maxBlockSize) (numEvals + 1 - numConverged).
Definition block_room (bmax maxBasisSize restartSize npr numConverged numLocked : nat) : nat :=
  Nat.min bmax (maxBasisSize + numLocked - restartSize - npr - numConverged).

(** 1002-1027: the merge with the norms; [b0] is blockNorms0, [rn j] resNorms[numLocked0+j]. *)
Fixpoint merge_norms {R} (rp ifl : list nat) (idx left failed nd sb : nat) (b0 : list R) (rn : list R)
    (fuel i j k : nat) (h : list nat) (b : list R) : option (list nat * list R * nat) :=
  match fuel with
  | 0 => None
  | S fu =>
      if (i <? idx) || (j <? failed) then
        takes_candidate <-
          (if i <? idx then
             if failed <=? j then Some true
             else
               a <- get rp i;
               fj <- get ifl j;
               c <- get rp (left + fj);
               Some (a <? c)
           else Some false);
        if (takes_candidate : bool) then
          b' <- (if (k <? nd) && (i <? sb) then v <- get b0 i ; put b k v else Some b) ;
          h' <- put h k i ; merge_norms rp ifl idx left failed nd sb b0 rn fu (S i) j (S k) h' b'
        else
          b' <- (if k <? nd then fj <- get ifl j ; v <- get rn fj ; put b k v else Some b) ;
          h' <- put h k (left + j) ; merge_norms rp ifl idx left failed nd sb b0 rn fu i (S j) (S k) h' b'
      else Some (h, b, k)
  end.

(** 1004-1031: blockNorms0 is a copy of the first sizeBlockNorms norms (1003). *)
Definition merge_block {R} (rp ifl : list nat) (idx npr failed nd sb : nat) (rn : list R)
    (h : list nat) (b : list R) : option (list nat * list R) :=
  r <- merge_norms rp ifl idx (idx + npr) failed nd sb (firstn sb b) rn (S (idx + failed)) 0 0 0 h b ;
  h' <- append_prev idx npr 0 (Datatypes.snd r) (Datatypes.fst (Datatypes.fst r)) ;
  Some (h', Datatypes.snd (Datatypes.fst r)).

(** A host matrix: row, column. *)
Definition host := nat -> nat -> K.

(** Num_copy_matrix_columns(&x[0,c0], m, xin, n, ld, y, NULL, ld), linalg/auxiliary.c
    649-662: column c1+i of y := column c0+xin[i] of x, one after another; x and y
    may be the same matrix. *)
Fixpoint copy_columns_in (i n : nat) (xin : list nat) (r0 m c0 : nat) (x : host) : option host :=
  match n with
  | 0 => Some x
  | S n' => s <- get xin i ;
      copy_columns_in (S i) n' xin r0 m c0
        (fun r c => if (c =? c0 + i) && (r0 <=? r) && (r <? r0 + m) then x r (c0 + s) else x r c)
  end.
(** Num_copy_matrix_rows(&x[r0,c0], xim, m, n, ld, &x[r0,c0], NULL, ld), 683-697. *)
Fixpoint copy_rows_in (i m : nat) (xim : list nat) (r0 n c0 : nat) (x : host) : option host :=
  match m with
  | 0 => Some x
  | S m' => s <- get xim i ;
      copy_rows_in (S i) m' xim r0 n c0
        (fun r c => if (r =? r0 + i) && (c0 <=? c) && (c <? c0 + n) then x (r0 + s) c else x r c)
  end.
(** The same into another matrix. *)
Fixpoint copy_columns_out (i n : nat) (xin : list nat) (m c0 : nat) (x y : host) : option host :=
  match n with
  | 0 => Some y
  | S n' => s <- get xin i ;
      copy_columns_out (S i) n' xin m c0 x
        (fun r c => if (c =? i) && (r <? m) then x r (c0 + s) else y r c)
  end.
Fixpoint copy_rows_out (i m : nat) (xim : list nat) (x0 n r0 c0 : nat) (x y : host) : option host :=
  match m with
  | 0 => Some y
  | S m' => s <- get xim i ;
      copy_rows_out (S i) m' xim x0 n r0 c0 x
        (fun r c => if (r =? r0 + i) && (c0 <=? c) && (c <? c0 + n) then x (x0 + s) (c - c0) else y r c)
  end.

(** 1094-1101: the new order of the columns: locked, restarted, failed. *)
Definition order (left failed packed : nat) (ifl : list nat) : list nat :=
  map (fun f => f + left) (firstn (packed - failed) (skipn failed ifl))
  ++ seq 0 left ++ map (fun f => f + left) (firstn failed ifl).

(** 1094-1117: VtBV; [nl] is numOrthoConst+numLocked (before locking). *)
Definition move_VtBV (nl left failed packed : nat) (ifl : list nat) (G : host) : option host :=
  let iV := order left failed packed ifl in
  let n := left + packed in
  w <- copy_columns_out 0 n iV (nl + n) nl G (fun _ _ => k0 o) ;
  let G1 : host := fun r c => if (r <? nl) && (nl <=? c) && (c <? nl + n) then w r (c - nl) else G r c in
  copy_rows_out 0 n iV nl n nl nl w G1.

(** 1119-1126: H. *)
Definition move_H (left failed packed : nat) (ifl : list nat) (H : host) : option host :=
  H1 <- copy_columns_in 0 failed ifl 0 (left + packed) left H ;
  copy_rows_in 0 failed ifl left (left + failed) 0 H1.

(** 1086-1089: hVals (hVecs in PermModel, C09_compact_vecs). *)
Fixpoint move_vals (i n : nat) (ifl : list nat) (left : nat) (v : nat -> K) : option (nat -> K) :=
  match n with
  | 0 => Some v
  | S n' => s <- get ifl i ;
      move_vals (S i) n' ifl left (fun c => if c =? left + i then v (left + s) else v c)
  end.

(** 1136-1157: the vectors that passed are packed after the locked ones;
    [nl0] is numOrthoConst+numLocked0, [j] counts the pairs seen, [q] those kept. *)
Fixpoint pack_evecs (fl : list flag) (hasBe : bool) (nl0 room m j q : nat) (mem : @memory K) : memory * nat :=
  match fl with
  | [] => (mem, q)
  | f :: t =>
      if negb (is_unconverged f) && (q <? room) then
        let m1 := cpn (3, nl0 + j) (3, nl0 + q) 1 0 m mem in
        let m2 := if hasBe then cpn (4, nl0 + j) (4, nl0 + q) 1 0 m m1 else m1 in
        pack_evecs t hasBe nl0 room m (S j) (S q) m2
      else pack_evecs t hasBe nl0 room m (S j) q mem
  end.

(** Num_aux_update_VWXR, restart.c 1263 and 1276-1289: VtBV after the update; [G] is
    what Num_update_VWXR returns for the basis, [basisSize] the columns before. *)
Definition aux_VtBV (nl rs basisSize : nat) (h : nat -> nat -> K) (G g : host) : host :=
  fun i j => if (nl <=? j) && (j <? nl + rs) then
               if i <? nl then sum o basisSize (fun l => kmul o (g i (nl + l)) (h l (j - nl)))
               else if i <? nl + rs then G (i - nl) (j - nl) else g i j
             else g i j.

(** restart.c 959-1172 on a process.  [fl0] are the flags of the pairs to be locked
    after the convergence test, [nl] numOrthoConst+numLocked, [room] numEvals-numLocked;
    VtBV and H are given when they are kept (H: primme_orth_explicit_I). *)
Record finished {R} := Fin {
  d_perm : list nat; d_norms : list R; d_vals : nat -> K; d_mem : @memory K;
  d_VtBV : option host; d_H : option host; d_locked : nat }.

Definition finish_lock {R} (hasB hasBe : bool) (idx npr sb nd nl room : nat) (fl0 : list flag)
    (rp h : list nat) (b rn : list R) (vals : nat -> K) (G H : option host) (m : nat) (mem : @memory K)
  : option (@finished R) :=
  let fl := settle room fl0 in                                            (* 962-970 *)
  let packed := length fl in
  let left := idx + npr in
  let ifl := ifailed fl in                                                (* 979-986 *)
  let failed := length (failed_first fl 0) in
  hb <- merge_block rp ifl idx npr failed nd sb rn h b ;                  (* 1002-1033 *)
  mem1 <- compute_residual_columns (merge_args hasB left (left + packed) failed sb nd ifl (Datatypes.fst hb) vals) m mem ;
  v <- move_vals 0 failed ifl left vals ;
  G' <- (match G with Some g => g' <- move_VtBV nl left failed packed ifl g ; Some (Some g') | None => Some None end) ;
  H' <- (match H with Some g => g' <- move_H left failed packed ifl g ; Some (Some g') | None => Some None end) ;
  let e := pack_evecs fl hasBe nl room m 0 0 mem1 in
  Some (Fin _ (Datatypes.fst hb) (Datatypes.snd hb) v (Datatypes.fst e) G' H' (Datatypes.snd e)).
End Move.
