(** The check of the parameters on all processes before a solution starts:
    check_params_coherence and coordinated_exit (eigs/primme_c.c 735-789, 802-816), with
    globalSum_Tprimme and broadcast_Tprimme (eigs/auxiliary_eigs.c 391-473) and
    PARALLEL_CHECK (include/common.h 403-455).

    A process is a program that computes and takes part in collective operations; the
    operations complete only when all processes call the same one.  Simplifications: the
    sums of ones and zeros are exact; the user's callbacks return no error; 123 travels
    unchanged through the broadcast of one number. *)
From Coq Require Import ZArith List Bool.
From Verif Require Import Base ParallelModel.
Import ListNotations.
Open Scope Z_scope.

(** The collective operations: a sum of numbers, a broadcast from the first process of the
    communicator, and both for the 32 bits of a checksum handled as a float. *)
Inductive coll := SumReals | BcastReals | SumBits | BcastBits.
Definition coll_eq (a b : coll) : bool :=
  match a, b with
  | SumReals, SumReals | BcastReals, BcastReals | SumBits, SumBits | BcastBits, BcastBits => true
  | _, _ => false
  end.
Inductive prog := Ret (code : Z) | Coll (k : coll) (x : list Z) (next : list Z -> prog).

(** [AllReturn]: every process returns, with these codes.  [Waiting]: some processes have
    returned and others wait in an operation.  [Mixed]: two processes are in different
    operations, or with different lengths. *)
Inductive fate := AllReturn (codes : list Z) | Waiting | Mixed.

Section Run.
(** What a float goes through when it is broadcast, and when it is summed with zeros. *)
Variable bcast_bits : Z -> Z.
Variable sum_bits : list Z -> Z.

Fixpoint add_lists (xs : list (list Z)) (n : nat) : list Z :=
  match n with
  | O => []
  | S m => fold_right Z.add 0 (map (hd 0) xs) :: add_lists (map (@tl Z) xs) m
  end.
Fixpoint bits_lists (xs : list (list Z)) (n : nat) : list Z :=
  match n with
  | O => []
  | S m => sum_bits (map (hd 0) xs) :: bits_lists (map (@tl Z) xs) m
  end.
(** What every process receives; the first list is that of the first process. *)
Definition deliver (k : coll) (x : list Z) (xs : list (list Z)) : list Z :=
  match k with
  | SumReals => add_lists (x :: xs) (length x)
  | BcastReals => x
  | SumBits => bits_lists (x :: xs) (length x)
  | BcastBits => map bcast_bits x
  end.
Definition returned (q : prog) : bool := match q with Ret _ => true | _ => false end.
Definition joins (k : coll) (n : nat) (q : prog) : bool :=
  match q with Coll k' x _ => coll_eq k k' && Nat.eqb (length x) n | Ret _ => false end.
Definition sends (q : prog) : list Z := match q with Coll _ x _ => x | Ret _ => [] end.
Definition goes_on (out : list Z) (q : prog) : prog := match q with Coll _ _ c => c out | _ => q end.
Definition code_of (q : prog) : Z := match q with Ret z => z | _ => 0 end.
(** All the processes, the first one apart. *)
Fixpoint run (q : prog) (qs : list prog) : fate :=
  match q with
  | Ret z => if forallb returned qs then AllReturn (z :: map code_of qs) else Waiting
  | Coll k x c =>
      if forallb (joins k (length x)) qs
      then let out := deliver k x (map sends qs) in run (c out) (map (goes_on out) qs)
      else if existsb returned qs then Waiting else Mixed
  end.
End Run.

(** What check_params_coherence reads on one process.  [d_members]: the members compared,
    in the order of lines 755-786, each with the text of the call and the two words of its
    value as double; [d_shifts]: the target shifts, which are not compared. *)
Record data := { d_numProcs : Z; d_procID : Z; d_sum : bool; d_bcast : bool;
  d_members : list (list Z * Z * Z); d_shifts : list Z }.

(** auxiliary_eigs.c 391-427: the quick exit. *)
Definition gsum (d : data) (k : coll) (x : list Z) (next : list Z -> prog) : prog :=
  if (d_numProcs d =? 1) || negb (d_sum d) then next x else Coll k x next.
(** 430-473: with the user's broadcast or with a sum. *)
Definition bcast (d : data) (kb ks : coll) (x : list Z) (next : list Z -> prog) : prog :=
  if d_numProcs d =? 1 then next x
  else if d_bcast d then Coll kb x next
  else gsum d ks (if negb (d_procID d =? 0) then map (fun _ => 0) x else x) next.

(** common.h 431-455 for each member in turn; [done] is what follows with the code. *)
Fixpoint parallel_checks (d : data) (ms : list (list Z * Z * Z)) (done : Z -> prog) : prog :=
  match ms with
  | [] => done 0
  | (s, w0, w1) :: t =>
      let h := hash_call s w0 w1 in
      bcast d BcastBits SumBits [h] (fun h0 =>
      gsum d SumReals [if h =? hd 0 h0 then 0 else 1] (fun total =>
      if negb (hd 0 total =? 0) then done PRIMME_PARALLEL_FAILURE else parallel_checks d t done))
  end.

(** primme_c.c 735-789. *)
Definition check_params_coherence (d : data) (done : Z -> prog) : prog :=
  gsum d SumReals [1; if d_procID d =? 0 then 1 else 0] (fun aux =>
  if xorb (hd 0 aux >? 1) (d_numProcs d >? 1) then done (-1)
  else if hd 0 (tl aux) >? 1 then done (-1)
  else bcast d BcastReals SumReals [123] (fun val =>
  if negb (hd 0 val =? 123) then done (-1)
  else parallel_checks d (d_members d) done)).

(** primme_c.c 802-816. *)
Definition coordinated (d : data) (ret : Z) : prog :=
  if negb (ret =? PRIMME_PARALLEL_FAILURE) && d_sum d
  then Coll SumReals [if ret =? 0 then 0 else 1] (fun pret =>
         Ret (if hd 0 pret >? 0 then (if ret =? 0 then PRIMME_PARALLEL_FAILURE else ret) else ret))
  else Ret ret.

(** primme_c.c 372, on all processes. *)
Definition start (bb : Z -> Z) (sb : list Z -> Z) (d : data) (ds : list data) : fate :=
  let q d := check_params_coherence d (coordinated d) in
  run bb sb (q d) (map q ds).
