(** Model of the recombination of the basis: Num_update_VWXR_Sprimme,
    src/eigs/auxiliary_eigs_normal.c 155-388, and Num_compute_residuals_Sprimme 70-99.

    Scalars are an arbitrary type with arbitrary operations.  Arrays are column major in
    the code; here an array has a number, rows and columns, and a place in memory is an
    array and its first column, so that outputs may overlap inputs by columns (the code
    works in place).  Reads and writes out of an array, or out of the computed range of
    columns, give [None].  GPU branch, timing and flops are left out. *)
From Coq Require Import List Arith Bool Lia.
From Verif Require Import Base.
Import ListNotations.

Record ops (K : Type) := Ops { zero : K; add : K -> K -> K; mul : K -> K -> K; sub : K -> K -> K;
                               conj : K -> K; root : K -> K }.
Arguments zero {K}. Arguments add {K}. Arguments mul {K}. Arguments sub {K}. Arguments conj {K}. Arguments root {K}.

Section Update.
Context {K : Type} (o : ops K).

Record memory := Mem { val : nat -> nat -> nat -> K; rows : nat -> nat; cols : nat -> nat }.
Definition place := (nat * nat)%type.            (* array, first column *)

(** Num_copy_matrix of a work array into rows [i .. i+m) of a place, [w] columns. *)
Definition store (s : memory) (p : place) (i m w : nat) (f : nat -> nat -> K) : option memory :=
  if (w =? 0) then Some s
  else if (i + m <=? rows s (fst p)) && (snd p + w <=? cols s (fst p))
  then Some (Mem (fun a r c => if (a =? fst p) && (i <=? r) && (r <? i + m) && (snd p <=? c) && (c <? snd p + w)
                               then f (r - i) (c - snd p) else val s a r c) (rows s) (cols s))
  else None.

Fixpoint sum (n : nat) (f : nat -> K) : K :=
  match n with 0 => zero o | S k => add o (sum k f) (f k) end.

(** A work array: its first column in the numbering of h, its width, its entries. *)
Record work := Work { w_b : nat; w_n : nat; w_at : nat -> nat -> K }.

(** Num_gemm of rows [i .. i+m) of the [nV] columns at [p] with the columns b..e-1 of h
    (of [nh] columns). *)
Definition gemm (s : memory) (p : place) (i m nV : nat) (h : nat -> nat -> K) (nh b e : nat) : option work :=
  if (e <=? b) then Some (Work b 0 (fun _ _ => zero o))
  else if (i + m <=? rows s (fst p)) && (snd p + nV <=? cols s (fst p)) && (e <=? nh)
  then Some (Work b (e - b) (fun r j => sum nV (fun k => mul o (val s (fst p) (i + r) (snd p + k)) (h k (b + j)))))
  else None.

(** Columns b..e-1 (numbering of h) of a work array. *)
Definition part (x : work) (b e : nat) : option (nat -> nat -> K) :=
  if (e <=? b) then Some (fun _ _ => zero o)
  else if (w_b x <=? b) && (e <=? w_b x + w_n x) then Some (fun r j => w_at x r (b - w_b x + j)) else None.

(** An output: where, and the columns of h. *)
Record output := Out { o_at : place; o_b : nat; o_e : nat }.

Fixpoint store_all (s : memory) (x : work) (i m : nat) (outs : list output) : option memory :=
  match outs with
  | [] => Some s
  | q :: t => f <- part x (o_b q) (o_e q);
              s' <- store s (o_at q) i m (o_e q - o_b q) f;
              store_all s' x i m t
  end.

(** The arguments.  [xs] are X0, X1, X2, [bxs] are BX0, BX1, BX2 (those not NULL);
    ranges without output are empty. *)
Record args := Args { aV : place; aW : place; aBV : option place; mV : nat; nV : nat;
  h : nat -> nat -> K; nh : nat; hVals : nat -> K;
  xs : list output; wo : option output; rr : option output; bxs : list output;
  small_r : option (nat * nat); small_x : option (nat * nat); nG : nat; nH : nat }.
(** [nG] and [nH] are 0 when G and H are NULL.  Rnorms is asked for whenever R is; the
    norms of the other residuals are those of rnorms, which overwrite Y after every use. *)

(** The hull of the non-empty ranges, 186-213 (an empty one when there is none, where the
    code has INT_MAX twice). *)
Definition range (b e : nat) : list (nat * nat) := if b <? e then [(b, e)] else [].
Definition out_range (q : output) : list (nat * nat) := range (o_b q) (o_e q).
Definition opt_range (q : option (nat * nat)) : list (nat * nat) :=
  match q with Some (b, e) => range b e | None => [] end.
Definition opt_out (q : option output) : list (nat * nat) := match q with Some q => out_range q | None => [] end.
Fixpoint hull (l : list (nat * nat)) : nat * nat :=
  match l with
  | [] => (0, 0)
  | [(b, e)] => (b, e)
  | (b, e) :: t => let (b', e') := hull t in (Nat.min b b', Nat.max e e')
  end.

Definition x_ranges (a : args) : list (nat * nat) :=             (* 189-197 *)
  flat_map out_range (xs a)
  ++ (match aBV a with None => opt_out (rr a) | Some _ => [] end)
  ++ range 0 (nG a) ++ range 0 (nH a)
  ++ (match aBV a with None => opt_range (small_r a) | Some _ => [] end)
  ++ opt_range (small_x a).
Definition y_ranges (a : args) : list (nat * nat) :=             (* 199-203 *)
  opt_out (wo a) ++ opt_out (rr a) ++ opt_range (small_r a) ++ range 0 (nH a).
Definition bx_ranges (a : args) : list (nat * nat) :=            (* 205-213 *)
  match aBV a with
  | None => []
  | Some _ => flat_map out_range (bxs a) ++ opt_out (rr a) ++ range 0 (nG a) ++ opt_range (small_r a)
  end.

(** What is accumulated: squares of the norms of R, of the other residuals and of X, and
    the matrices G and H. *)
Record sums := Sums { sR : nat -> K; sr : nat -> K; sx : nat -> K; sG : nat -> nat -> K; sH : nat -> nat -> K }.
Definition no_sums : sums := Sums (fun _ => zero o) (fun _ => zero o) (fun _ => zero o)
                                  (fun _ _ => zero o) (fun _ _ => zero o).

(** Num_dot of [m] entries of two columns of work arrays. *)
Definition cdot (m : nat) (x y : nat -> K) : K := sum m (fun r => mul o (conj o (x r)) (y r)).

(** Num_compute_residuals, 70-99: r = Ax - eval*Bx by columns. *)
Definition residuals (ev : nat -> K) (bx ax : nat -> nat -> K) : nat -> nat -> K :=
  fun r j => sub o (ax r j) (mul o (ev j) (bx r j)).

(** The body of the loop, 252-342. *)
Definition chunk (a : args) (i m : nat) (s : memory) (acc : sums) : option (memory * sums) :=
  let (xb, xe) := hull (x_ranges a) in
  let (yb, ye) := hull (y_ranges a) in
  let (bb, be) := hull (bx_ranges a) in
  x <- gemm s (aV a) i m (nV a) (h a) (nh a) xb xe;
  s1 <- store_all s x i m (xs a);
  y <- gemm s1 (aW a) i m (nV a) (h a) (nh a) yb ye;
  s2 <- store_all s1 y i m (match wo a with Some q => [q] | None => [] end);
  bx <- match aBV a with
        | Some p => gemm s2 p i m (nV a) (h a) (nh a) bb be
        | None => Some x
        end;
  s3 <- match aBV a with Some _ => store_all s2 bx i m (bxs a) | None => Some s2 end;
  gx <- part x 0 (nG a);
  gb <- part bx 0 (nG a);
  hx <- part x 0 (nH a);
  hy <- part y 0 (nH a);
  let G := fun p q => add o (sG acc p q) (cdot m (fun r => gx r p) (fun r => gb r q)) in
  let H := fun p q => add o (sH acc p q) (cdot m (fun r => hx r p) (fun r => hy r q)) in
  x3 <- match small_x a with
        | Some (b, e) => f <- part x b e;
                         Some (fun j => add o (sx acc j) (cdot m (fun r => f r j) (fun r => f r j)))
        | None => Some (sx acc)
        end;
  q <- match rr a with
       | Some q =>
           bf <- part bx (o_b q) (o_e q);
           yf <- part y (o_b q) (o_e q);
           let f := residuals (fun j => hVals a (o_b q + j)) bf yf in
           s4 <- store s3 (o_at q) i m (o_e q - o_b q) f;
           Some (s4, fun j => add o (sR acc j) (cdot m (fun r => f r j) (fun r => f r j)))
       | None => Some (s3, sR acc)
       end;
  r3 <- match small_r a with
        | Some (b, e) =>
            bf <- part bx b e;
            yf <- part y b e;
            let f := residuals (fun j => hVals a (b + j)) bf yf in
            Some (fun j => add o (sr acc j) (cdot m (fun r => f r j) (fun r => f r j)))
        | None => Some (sr acc)
        end;
  Some (fst q, Sums (snd q) r3 x3 G H).

(** The loop, 252: i from 0, m rows at a time, the rest at the end. *)
Fixpoint loop (fuel : nat) (a : args) (i m : nat) (s : memory) (acc : sums) : option (memory * sums) :=
  match fuel with
  | 0 => None
  | S fu =>
      if i <? mV a then
        q <- chunk a i m s acc;
        loop fu a (i + m) (Nat.min m (mV a - (i + m))) (fst q) (snd q)
      else Some (s, acc)
  end.

(** One process up to the reductions; [block] is PRIMME_BLOCK_SIZE. *)
Definition update_local (block : nat) (a : args) (s : memory) : option (memory * sums) :=
  loop (S (mV a)) a 0 (Nat.min block (mV a)) s no_sums.

(** 354-372: the squares are packed, summed over the processes and their roots unpacked. *)
Definition width (q : option (nat * nat)) : nat := match q with Some (b, e) => e - b | None => 0 end.
Definition r_width (a : args) : nat := match rr a with Some q => o_e q - o_b q | None => 0 end.
Definition pack (a : args) (c : sums) : list K :=
  map (sR c) (seq 0 (r_width a)) ++ map (sr c) (seq 0 (width (small_r a))) ++ map (sx c) (seq 0 (width (small_x a))).
Definition global_sum (l : list (list K)) : list K :=
  match l with
  | [] => []
  | x :: t => fold_left (fun u v => map (fun p => add o (fst p) (snd p)) (combine u v)) t x
  end.
Record norms := Norms { nR : list K; nr : list K; nx : list K }.
Definition unpack (a : args) (l : list K) : norms :=
  let t := map (root o) l in
  let k1 := r_width a in
  let k2 := width (small_r a) in
  Norms (firstn k1 t) (firstn k2 (skipn k1 t)) (firstn (width (small_x a)) (skipn (k1 + k2) t)).
Definition reduce (a : args) (cs : list sums) : norms := unpack a (global_sum (map (pack a) cs)).
End Update.
Arguments memory : clear implicits.
Arguments args : clear implicits.
Arguments sums : clear implicits.
Arguments work : clear implicits.
