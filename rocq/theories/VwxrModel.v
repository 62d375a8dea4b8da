(** Model of Num_update_VWXR_Sprimme (src/eigs/auxiliary_eigs_normal.c 154-403):
    Ritz vectors, residual vectors, their norms and the projected matrices,
    computed by pieces of rows and possibly over the basis itself.

    Memory of a process: array, column, row.  A pointer is a column of an array
    (all callers pass the start of a column: restart.c 1252, 2047, main_iter.c
    1668, 1786), so that two pointers may be into the same array.  Memory
    addressing inside an array is the subject of BlasModel.  The buffers X, Y and
    BX are private; reading a column they do not have gives [None].  Not modelled:
    failures of malloc, the flop counts, the assertions. *)
From Coq Require Import List Arith Bool.
From Verif Require Import Base ProjModel SpecProj MatAlg.
Import ListNotations.

Section Vwxr.
Context {K : Type} (o : scal K).
Variable cplx : bool.        (* USE_COMPLEX *)
Variable pbs : nat.          (* PRIMME_BLOCK_SIZE *)
Variable imax : nat.         (* INT_MAX *)
Variable sq : K -> K.        (* sqrt *)

Definition memory := nat -> nat -> nat -> K.     (* array, column, row *)
Definition buffer := nat -> nat -> K.            (* column, row *)
Definition ptr := (nat * nat)%type.              (* array, column *)

(** An output matrix: pointer (None is NULL) and range of columns of h. *)
Record out := Out { o_ptr : option ptr; o_b : nat; o_e : nat }.
(** An output array of norms. *)
Record norms := Norms { n_given : bool; n_b : nat; n_e : nat }.
(** The arguments. *)
Record job := Job {
  j_V : ptr; j_W : option ptr; j_BV : option ptr; j_nV : nat;
  j_h : nat -> nat -> K; j_vals : nat -> K;
  j_x0 : out; j_x1 : out; j_x2 : out; j_wo : out; j_r : out; j_Rnorms : bool;
  j_bx0 : out; j_bx1 : out; j_bx2 : out;
  j_rn : norms; j_G : option nat; j_H : option nat; j_xn : norms }.

Definition given (x : out) : bool := match o_ptr x with Some _ => true | None => false end.
Definition asked (x : out) : bool := given x && (o_b x <? o_e x).
Definition nasked (x : norms) : bool := n_given x && (n_b x <? n_e x).
Definition noBV (J : job) : bool := match j_BV J with None => true | Some _ => false end.
Definition size (x : option nat) : nat := match x with Some n => n | None => 0 end.

(** 188-220: first and last columns of the requests in force, from INT_MAX and 0. *)
Definition request := (bool * nat * nat)%type.
Definition widen (acc : nat * nat) (q : request) : nat * nat :=
  let '(c, b, e) := q in if c then (Nat.min (Datatypes.fst acc) b, Nat.max (Datatypes.snd acc) e) else acc.
Definition span (l : list request) : nat * nat :=
  let '(lo, hi) := fold_left widen l (imax, 0) in (lo, Nat.max hi lo).
Definition of_out (x : out) : request := (asked x, o_b x, o_e x).
Definition of_norms (x : norms) : request := (nasked x, n_b x, n_e x).
Definition of_size (x : option nat) : request := (0 <? size x, 0, size x).
Definition unless (c : bool) (q : request) : request :=
  let '(c', b, e) := q in (c' && c, b, e).

Definition spanX (J : job) : nat * nat :=                          (* 191-199 *)
  span [of_out (j_x0 J); of_out (j_x1 J); of_out (j_x2 J); unless (noBV J) (of_out (j_r J));
        of_size (j_G J); of_size (j_H J); unless (noBV J) (of_norms (j_rn J)); of_norms (j_xn J)].
Definition spanY (J : job) : nat * nat :=                          (* 201-205 *)
  span [of_out (j_wo J); of_out (j_r J); of_norms (j_rn J); of_size (j_H J)].
Definition spanBX (J : job) : nat * nat :=                         (* 207-215 *)
  span (if noBV J then [] else
       [of_out (j_bx0 J); of_out (j_bx1 J); of_out (j_bx2 J); of_out (j_r J); of_size (j_G J);
        of_norms (j_rn J)]).

(** Num_gemm_dhd("N", "N", m, hi-lo, nV, 1.0, &A[i], ld, &h[lo*ldh], ldh, 0.0, ...):
    with a single row and a single column the path through Num_gemv and Num_dot
    conjugates the row in complex arithmetic (C55_one_row_refuted). *)
Definition product (mem : memory) (A : ptr) (J : job) (i m lo hi : nat) : buffer :=
  fun j r => sum o (j_nV J) (fun l =>
    let a := mem (Datatypes.fst A) (Datatypes.snd A + l) (i + r) in
    kmul o (if cplx && (m =? 1) && (hi - lo =? 1) then kconj o a else a) (j_h J l (lo + j))).

(** Columns b..e-1 are in a buffer of the columns lo..hi-1. *)
Definition inside (s : nat * nat) (b e : nat) : bool :=
  (e <=? b) || ((Datatypes.fst s <=? b) && (e <=? Datatypes.snd s)).

Definition covers (x : out) (a c : nat) : bool :=
  match o_ptr x with
  | Some (a', c') => (a =? a') && (c' <=? c) && (c <? c' + (o_e x - o_b x))
  | None => false
  end.
(** Num_copy_matrix(&X[ldX*(b-lo)], m, e-b, ldX, &X0[i], ldX0) *)
Definition wr (s : nat * nat) (buf : buffer) (i m : nat) (mem : memory) (x : out) : memory :=
  fun a c r => if covers x a c && (i <=? r) && (r <? i + m)
               then buf (o_b x - Datatypes.fst s + (c - match o_ptr x with Some (_, c') => c' | None => 0 end)) (r - i)
               else mem a c r.
Definition writes (s : nat * nat) (buf : buffer) (i m : nat) (l : list out) (mem : memory) : option memory :=
  if forallb (fun x => negb (given x) || inside s (o_b x) (o_e x)) l
  then Some (fold_left (wr s buf i m) l mem) else None.

(** Num_dot of two columns of m rows. *)
Definition dot (m : nat) (x y : nat -> K) : K := sum o m (fun r => kmul o (kconj o (x r)) (y r)).

Record state := St { s_mem : memory; s_R : nat -> K; s_r : nat -> K; s_x : nat -> K;
                     s_G : nat -> nat -> K; s_H : nat -> nat -> K }.

(** Num_compute_gramm_ddh(X, m, n, ldX, Y, ldY, i == 0 ? 0.0 : 1.0, G0, ...) *)
Definition gramm (X Y : buffer) (i m : nat) (G : nat -> nat -> K) : nat -> nat -> K :=
  fun a b => kadd o (dot m (X a) (Y b)) (kmul o (if i =? 0 then k0 o else k1 o) (G a b)).

(** Num_compute_residuals_Sprimme, 69-99: columns b.. of W*h minus the value times
    the columns of BV*h (or V*h). *)
Definition residuals (J : job) (sY sB : nat * nat) (Y B : buffer) (b : nat) : buffer :=
  fun j r => ksub o (Y (b - Datatypes.fst sY + j) r)
               (kmul o (j_vals J (b + j)) (B (b - Datatypes.fst sB + j) r)).

(** 263-357: one piece of m rows from row i on. *)
Definition piece (J : job) (i m : nat) (s : state) : option state :=
  let sX := spanX J in let sY := spanY J in let sB := spanBX J in
  let X := product (s_mem s) (j_V J) J i m (Datatypes.fst sX) (Datatypes.snd sX) in
  mem1 <- writes sX X i m [j_x0 J; j_x1 J; j_x2 J] (s_mem s) ;
  Y <- (if Datatypes.fst sY <? Datatypes.snd sY then
          W <- j_W J ; Some (product mem1 W J i m (Datatypes.fst sY) (Datatypes.snd sY))
        else Some (fun _ _ => k0 o)) ;
  mem2 <- writes sY Y i m [j_wo J] mem1 ;
  let BX := match j_BV J with
            | Some BV => product mem2 BV J i m (Datatypes.fst sB) (Datatypes.snd sB)
            | None => fun _ _ => k0 o end in
  mem3 <- writes sB BX i m [j_bx0 J; j_bx1 J; j_bx2 J] mem2 ;
  G <- (match j_G J with
        | Some n => if (n <=? Datatypes.snd sX - Datatypes.fst sX) &&
                       (noBV J || (n <=? Datatypes.snd sB - Datatypes.fst sB))
                    then Some (gramm X (if noBV J then X else BX) i m (s_G s)) else None
        | None => Some (s_G s) end) ;
  H <- (match j_H J with
        | Some n => if (n <=? Datatypes.snd sX - Datatypes.fst sX) && (n <=? Datatypes.snd sY - Datatypes.fst sY)
                    then Some (gramm X Y i m (s_H s)) else None
        | None => Some (s_H s) end) ;
  xn <- (if n_given (j_xn J) then
           if inside sX (n_b (j_xn J)) (n_e (j_xn J)) then
             Some (fun j => kadd o (s_x s j)
                     (dot m (X (n_b (j_xn J) + j - Datatypes.fst sX)) (X (n_b (j_xn J) + j - Datatypes.fst sX))))
           else None
         else Some (s_x s)) ;
  let sZ := if noBV J then sX else sB in
  let Z := if noBV J then X else BX in
  q <- (match o_ptr (j_r J) with
        | Some (a, c) =>
          if inside sY (o_b (j_r J)) (o_e (j_r J)) && inside sZ (o_b (j_r J)) (o_e (j_r J)) then
            let mem4 := wr (o_b (j_r J), 0) (residuals J sY sZ Y Z (o_b (j_r J))) i m mem3 (j_r J) in
            Some (mem4, if j_Rnorms J then fun j => kadd o (s_R s j)
                             (dot m (fun r => mem4 a (c + j) (i + r)) (fun r => mem4 a (c + j) (i + r)))
                        else s_R s)
          else None
        | None => Some (mem3, s_R s) end) ;
  rn <- (if n_given (j_rn J) then
           if inside sY (n_b (j_rn J)) (n_e (j_rn J)) && inside sZ (n_b (j_rn J)) (n_e (j_rn J)) then
             let Y' := residuals J sY sZ Y Z (n_b (j_rn J)) in
             Some (fun j => kadd o (s_r s j) (dot m (Y' j) (Y' j)))
           else None
         else Some (s_r s)) ;
  Some (St (Datatypes.fst q) (Datatypes.snd q) rn xn G H).

(** 262: for (i=0; i < mV; i+=m, m=min(m,mV-i)) *)
Fixpoint pieces (fuel : nat) (J : job) (mV i m : nat) (s : state) : option state :=
  match fuel with
  | 0 => Some s
  | S f => if i <? mV then s' <- piece J i m s ; pieces f J mV (i + m) (Nat.min m (mV - (i + m))) s'
           else Some s
  end.
Definition local (J : job) (mV : nat) (mem : memory) : option state :=
  let z := fun _ : nat => k0 o in
  pieces mV J mV 0 (Nat.min pbs mV) (St mem z z z (fun _ _ => k0 o) (fun _ _ => k0 o)).  (* 255-260 *)

(** ** All processes: process p has mV p rows. *)
Variable np : nat.
Definition total (f : nat -> K) : K := sum o np f.
Fixpoint each (n : nat) (f : nat -> option state) : option (nat -> state) :=
  match n with
  | 0 => Some (fun _ => St (fun _ _ _ => k0 o) (fun _ => k0 o) (fun _ => k0 o) (fun _ => k0 o) (fun _ _ => k0 o) (fun _ _ => k0 o))
  | S n' => g <- each n' f ; s <- f n' ; Some (fun p => if p =? n' then s else g p)
  end.
Record result := Res { r_mem : nat -> memory; r_R : nat -> K; r_r : nat -> K; r_x : nat -> K;
                       r_G : nat -> nat -> K; r_H : nat -> nat -> K }.

(** 370-377: the norms of a process in one buffer. *)
Definition lenR (J : job) : nat := if j_Rnorms J then o_e (j_r J) - o_b (j_r J) else 0.
Definition lenn (x : norms) : nat := if n_given x then n_e x - n_b x else 0.
Definition packed (J : job) (s : state) : list K :=
  map (s_R s) (seq 0 (lenR J)) ++ map (s_r s) (seq 0 (lenn (j_rn J))) ++ map (s_x s) (seq 0 (lenn (j_xn J))).

(** 356: the size of the buffer; writing past it is undefined. *)
Definition capacity (J : job) : nat :=
  (o_e (j_r J) - o_b (j_r J)) + (n_e (j_rn J) - n_b (j_rn J)) + (n_e (j_xn J) - n_b (j_xn J)).

(** The whole routine; 359-392: sums over the processes and square roots. *)
Definition update_VWXR (J : job) (mV : nat -> nat) (mem : nat -> memory) : option result :=
  st <- each np (fun p => local J (mV p) (mem p)) ;
  let G := if 1 <? np then fun a b => total (fun p => s_G (st p) a b) else s_G (st 0) in
  let H := if 1 <? np then fun a b => total (fun p => s_H (st p) a b) else s_H (st 0) in
  if 1 <? np then
    if capacity J <? length (packed J (st 0)) then None else
    let tmp := fun j => total (fun p => nth j (packed J (st p)) (k0 o)) in
    Some (Res (fun p => s_mem (st p))
            (fun j => sq (tmp j)) (fun j => sq (tmp (lenR J + j)))
            (fun j => sq (tmp (lenR J + lenn (j_rn J) + j))) G H)
  else
    Some (Res (fun p => s_mem (st p)) (fun j => sq (s_R (st 0) j)) (fun j => sq (s_r (st 0) j))
            (fun j => sq (s_x (st 0) j)) G H).

(** ** The calls.  Arrays: 0 V, 1 W, 2 B*V, 3 evecs, 4 Bevecs, 5 Q. *)
Definition none : out := Out None 0 0.
Definition no_norms : norms := Norms false 0 0.
Definition if_B (hasB : bool) (x : out) : out := if hasB then x else none.

(** restart.c 931-946 through Num_aux_update_VWXR 1252-1266 (locking).  [ev] is
    numLocked+numOrthoConst, [rs] restartSize, [sb] sizeBlockNorms; the matrix VtBV and H
    are sized where given. *)
Definition restart_job (hasB hasBe : bool) (G H : option nat) (basisSize rs sb left packed ev : nat)
    (h : nat -> nat -> K) (vals : nat -> K) : job :=
  Job (0, 0) (Some (1, 0)) (if hasB then Some (2, 0) else None) basisSize h vals
    (Out (Some (0, 0)) 0 rs) (Out (Some (0, rs)) 0 sb) (Out (Some (3, ev)) left (left + packed))
    (Out (Some (1, 0)) 0 rs) (Out (Some (1, rs)) 0 sb) true
    (if_B hasB (Out (Some (2, 0)) 0 rs)) (if_B hasB (Out (Some (2, rs)) 0 sb))
    (if_B (hasB && hasBe) (Out (Some (4, ev)) left (left + packed)))
    (Norms true left rs) G H no_norms.
(** restart.c 692-706 (soft locking); [nc] is *numConverged, [iev] *ievSize, [oc] numOrthoConst. *)
Definition soft_job (hasB hasBe : bool) (G H : option nat) (basisSize rs nc iev oc : nat)
    (h : nat -> nat -> K) (vals : nat -> K) : job :=
  Job (0, 0) (Some (1, 0)) (if hasB then Some (2, 0) else None) basisSize h vals
    (Out (Some (0, 0)) 0 rs) (Out (Some (0, rs)) nc (nc + iev)) (Out (Some (3, oc)) 0 nc)
    (Out (Some (1, 0)) 0 rs) (Out (Some (1, rs)) nc (nc + iev)) true
    (if_B hasB (Out (Some (2, 0)) 0 rs)) (if_B hasB (Out (Some (2, rs)) nc (nc + iev)))
    (if_B (hasB && hasBe) (Out (Some (4, oc)) 0 nc))
    no_norms G H no_norms.
(** main_iter.c 1668-1682: candidates; [bs] is *blockSize, [n] blockNormsSize. *)
Definition candidates_job (hasB xr : bool) (basisSize bs n : nat) (h : nat -> nat -> K) (vals : nat -> K) : job :=
  Job (0, 0) (Some (1, 0)) (if hasB then Some (2, 0) else None) basisSize h vals
    (Out (Some (0, basisSize + bs)) 0 (if xr then n else 0)) none none
    none (Out (Some (1, basisSize + bs)) 0 (if xr then n else 0)) xr
    (if_B hasB (Out (Some (2, basisSize + bs)) 0 n)) none none
    (Norms true 0 (if xr then 0 else n)) None None (Norms hasB 0 n).
(** main_iter.c 1787-1801: pairs appended to evecs when the solver returns them unconverged. *)
Definition last_job (hasB : bool) (basisSize nc n : nat) (h : nat -> nat -> K) (vals : nat -> K) : job :=
  Job (0, 0) (Some (1, 0)) (if hasB then Some (2, 0) else None) basisSize h vals
    (Out (Some (3, nc)) 0 n) none none none none false none none none (Norms true 0 n) None None no_norms.
(** restart.c 2047-2062: Q in place. *)
Definition refined_job (G : option nat) (basisSize rs : nat) (h : nat -> nat -> K) : job :=
  Job (5, 0) None None basisSize h (fun _ => k0 o)
    (Out (Some (5, 0)) 0 rs) none none none none false none none none no_norms
    G None no_norms.
End Vwxr.
