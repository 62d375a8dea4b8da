(** Model of the orthogonalisation kernels of src/eigs/ortho.c.

    The vectors, the scalars and every floating point operation on them are
    the fields of a record ([space]); no law is assumed here, so the control
    flow is modelled for any arithmetic whatever (NaN, overflow, ...).  The laws
    of exact arithmetic appear only in SpecOrtho. *)
From Coq Require Import List Arith Lia Bool.
From Verif Require Import Base.
Import ListNotations.

(** What the code calls.  [ip u w] is Num_dot / the entries of Num_gemv_ddh
    followed by globalSum (u'*w over all processes, so the model is of one
    process); [bapp] is the user's B or NULL (ortho.c 128); [kre] REAL_PART;
    [kfin] ISFINITE; [keps] is machineEpsOrth (174-175), [ktol] is sqrt(2)/2 (138). *)
Record space := Space {
  X : Type; K : Type;
  k0 : K; k1 : K; kadd : K -> K -> K; kmul : K -> K -> K; ksub : K -> K -> K;
  kopp : K -> K; kinv : K -> K; kconj : K -> K; kre : K -> K; ksqrt : K -> K;
  kfin : K -> bool; kle : K -> K -> bool; keps : K; ktol : K;
  x0 : X; xadd : X -> X -> X; xscal : K -> X -> X;
  ip : X -> X -> K; bapp : option (X -> X)
}.

Section Ortho.
Variable sp : space.
Variable hasprimme : bool.        (* primme != NULL, 130 *)
Variable hasR hasRL : bool.       (* R != NULL, RLocked != NULL *)
Variable rnd : nat -> X sp.       (* the vectors Num_larnv produces, in order *)

(* ortho.c 134 *)
Definition maxNumOrthos : nat := if hasprimme then 3 else 7.
(* ortho.c 137 *)
Definition maxNumRandoms : nat := 10.

(** The variables of one turn of the loop over i (179-190): the column V[i],
    the vector Bx, the flag Bx_update, nOrth, randomizations, the position of
    the random stream (iseed), updateR, the column of R, the column of RLocked
    and s0.  [npass] counts the passes made and exists only for the theorems.
    s02 and s12 are only read through s0 and s1 and are not kept. *)
Record vst := Vst {
  v : X sp; bx : X sp; bxup : bool; nOrth : nat; nrand : nat; seed : nat;
  npass : nat; updR : bool; col : list (K sp); colL : list (K sp); s0 : K sp
}.

(** y - us*cs, Num_gemv_dhd("N", ..., -1.0, us, cs, 1.0, y), 262-273. *)
Fixpoint deflate (us : list (X sp)) (cs : list (K sp)) (y : X sp) : X sp :=
  match us, cs with
  | u :: us', c :: cs' => deflate us' cs' (xadd sp y (xscal sp (kopp sp c) u))
  | _, _ => y
  end.

(** Num_axpy(|src|, 1.0, src, dst), 251-260. *)
Fixpoint addto (dst src : list (K sp)) : list (K sp) :=
  match dst, src with
  | d :: dst', s :: src' => kadd sp d s :: addto dst' src'
  | _, _ => dst
  end.

Inductive step := Go (s : vst) | Take (s : vst) | GiveUp (s : vst).

(** 198-201: R[i,i] = 0 and updateR = 0, once. *)
Definition freeze (i : nat) (st : vst) : vst :=
  if updR st then
    Vst (v st) (bx st) (bxup st) (nOrth st) (nrand st) (seed st) (npass st) false
        (if hasR then upd (col st) i (k0 sp) else col st) (colL st) (s0 st)
  else st.

(** 209-212: V[i] random, randomizations++, nOrth = 0, Bx_update = 0. *)
Definition randomise (st : vst) : vst :=
  Vst (rnd (seed st)) (bx st) false 0 (S (nrand st)) (S (seed st)) (npass st)
      (updR st) (col st) (colL st) (s0 st).

(** 215-315: one orthogonalisation pass of column i against prev = V[0:i-1] and
    locked, and the decision that ends it. *)
Definition orth_pass (i : nat) (prev locked : list (X sp)) (st : vst) : step :=
  let n := S (nOrth st) in                                            (* 215 *)
  let b := match bapp sp with                                          (* 219-224 *)
           | Some f => if bxup st then bx st else f (v st)
           | None => v st
           end in
  let o := map (fun u => ip sp u b) prev in                            (* 236-240 *)
  let oL := map (fun u => ip sp u b) locked in                         (* 242-246 *)
  let c := if updR st && hasR then addto (col st) o else col st in     (* 252-255 *)
  let cL := if updR st && hasRL then addto (colL st) oL else colL st in (* 256-259 *)
  let w := deflate prev o (deflate locked oL (v st)) in                (* 262-273 *)
  let s0' := if n =? 1 then ksqrt sp (kre sp (ip sp (v st) b)) else s0 st in (* 229-232, 277-279 *)
  let b' := match bapp sp with Some f => f w | None => w end in        (* 283-286 *)
  let up' := match bapp sp with Some _ => true | None => false end in
  let s1 := ksqrt sp (kre sp (ip sp w b')) in                          (* 287-291 *)
  let mk x n' c' z := Vst x b' up' n' (nrand st) (seed st) (S (npass st))
                          (updR st) c' cL z in
  if negb (kfin sp s0') || negb (kfin sp s1) || kle sp s1 (kmul sp (keps sp) s0')
  then Go (mk w maxNumOrthos c s0')                                    (* 293-297 *)
  else if kle sp s1 (kmul sp (ktol sp) s0') || (negb hasprimme && (n <? maxNumOrthos))
  then Go (mk w n c s1)                                                (* 298-302 *)
  else
    let c' := if updR st && hasR then upd c i s1 else c in             (* 304 *)
    if kfin sp (kinv sp s1)
    then Take (mk (xscal sp (kinv sp s1) w) n c' s0')                  (* 306-309 *)
    else Go (mk w maxNumOrthos c' s0').                                (* 310-314 *)

(** 192-316: one turn of the inner loop. *)
Definition turn (i : nat) (prev locked : list (X sp)) (st : vst) : step :=
  if maxNumOrthos <=? nOrth st then
    let st' := freeze i st in
    if maxNumRandoms <=? nrand st' then GiveUp st'                     (* 203-205 *)
    else orth_pass i prev locked (randomise st')
  else orth_pass i prev locked st.

(** The inner loop.  [fuel] is a device of the model: [None] means it ran out. *)
Fixpoint vec_loop (fuel i : nat) (prev locked : list (X sp)) (st : vst)
  : option (bool * vst) :=
  match fuel with
  | 0 => None
  | S f => match turn i prev locked st with
           | Go s => vec_loop f i prev locked s
           | Take s => Some (true, s)
           | GiveUp s => Some (false, s)
           end
  end.

Definition fuel0 : nat := S maxNumRandoms * maxNumOrthos + 1.

(** The arrays: V, R (its columns b1..b2, each with rows 0..b2), RLocked (one
    column per new vector), the random stream position, the passes made so far
    and *b2_out. *)
Record ost := Ost {
  oV : list (X sp); oR : list (list (K sp)); oRL : list (list (K sp));
  oseed : nat; opass : nat; oout : nat
}.

(** 177-318: the loop over i; [k] vectors remain. *)
Fixpoint vecs (k i b1 : nat) (locked : list (X sp)) (s : ost) : option ost :=
  match k with
  | 0 => Some s
  | S k' =>
    x <- get (oV s) i ;
    c <- get (oR s) (i - b1) ;
    cL <- get (oRL s) (i - b1) ;
    r <- vec_loop fuel0 i (firstn i (oV s)) locked
           (Vst x x false 0 0 (oseed s) (opass s) (hasR || hasRL) c cL (k0 sp)) ;
    let '(ok, z) := r in
    let s' := Ost (upd (oV s) i (v z)) (upd (oR s) (i - b1) (col z))
                  (upd (oRL s) (i - b1) (colL z)) (seed z) (npass z)
                  (if ok then S i else oout s) in                      (* 317 *)
    if ok then vecs k' (S i) b1 locked s' else Some s'                 (* 204, goto clean *)
  end.

(** Bortho_gen_Sprimme, 124-360, on V[b1], ..., V[e-1] with e = b2+1.  150-158
    zero R and RLocked; 173 sets *b2_out = b1.  Memory allocation and error
    returns of the callees are not modelled. *)
Definition bortho_gen (V : list (X sp)) (b1 e : nat) (locked : list (X sp))
    (iseed : nat) : option ost :=
  vecs (e - b1) b1 b1 locked
    (Ost V (repeat (repeat (k0 sp) e) (e - b1))
           (repeat (repeat (k0 sp) (length locked)) (e - b1)) iseed 0 b1).

(** ortho_Sprimme 363-372 and Bortho_local 394-415: 0 if every vector of the
    range was orthonormalised and -3 otherwise ([false]). *)
Definition ortho_ok (V : list (X sp)) (b1 e : nat) (locked : list (X sp))
    (iseed : nat) : option bool :=
  s <- bortho_gen V b1 e locked iseed ; Some (oout s =? e).

End Ortho.

(* ------------------------------------------------------------------ *)
(** rank_estimation, 1165-1181.  [G j i] is entry (j,i) of the matrix,
    [bad_diag] the test of 1171 and [big] the test of 1173-1174 on entry (j,i). *)
Section Rank.
Variable G : Type.
Variable entry : nat -> nat -> G.
Variable bad_diag : G -> bool.
Variable big : G -> G -> G -> bool.   (* entry (j,i), (i,i), (j,j) *)

(* 1172-1176: does some j < i stop the scan? *)
Fixpoint some_big (j i : nat) : bool :=
  match j with
  | 0 => false
  | S j' => some_big j' i || big (entry j' i) (entry i i) (entry j' j')
  end.

(* 1169-1180, [k] columns left *)
Fixpoint rank_scan (k i : nat) : nat :=
  match k with
  | 0 => i
  | S k' => if bad_diag (entry i i) then i
            else if some_big i i then i
            else rank_scan k' (S i)
  end.

Definition rank_estimation (n0 n1 : nat) : nat := rank_scan (n1 - n0) n0.
End Rank.

(** The control of Bortho_block_gen_Sprimme for VLtBVL != NULL, 608-784.
    [T k] is the transformation computed in iteration k of the loop (the pair
    VLtBVLdA, Y, D); the block is represented by the transformations applied to
    it so far (Num_ortho_kernel, 621-637, applies the one of the previous
    iteration) and R by those multiplied into it (718-757).  [full k] is "the
    rank estimation of iteration k is numLocked+b2" (652) and [unit_diag k]
    the test of 655-662.  [fin] is the last rank estimation minus numLocked
    (777-783), which is made from the inner products of the last iteration. *)
Section Block.
Variable full unit_diag : nat -> bool.

Record bst := Bst { inV : list nat; inR : list nat; b_its : nat }.

Fixpoint svqb (fuel its plus1 : nat) (s : bst) : bst :=
  match fuel with
  | 0 => s                                                   (* its = maxits *)
  | S f =>
    let V' := match its with 0 => inV s | S p => inV s ++ [p] end in   (* 621-637 *)
    let stop := full its && (plus1 <=? its) && unit_diag its in        (* 652-663 *)
    let plus1' := if full its && (its <? plus1) then Nat.min (S its) plus1
                  else plus1 in                                        (* 664 *)
    if stop then Bst V' (inR s) (S its)
    else svqb f (S its) plus1' (Bst V' (inR s ++ [its]) (S its))       (* 718-757 *)
  end.

(* 609-612: maxits = 5, plus1 = 5 *)
Definition svqb_run : bst := svqb 5 0 5 (Bst [] [] 0).
End Block.
