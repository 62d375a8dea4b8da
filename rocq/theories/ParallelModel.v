(** Communication between processes: the error synchronisation, the reduction
    and broadcast wrappers and the consistency check.

    The processes run the same code on their own data; a collective step is
    modelled as one step of the list of all processes. *)
From Coq Require Import ZArith List Bool Lia.
From Verif Require Import Base.
Import ListNotations.
Open Scope Z_scope.

(** include/primme.h 116-123 *)
Definition PRIMME_USER_FAILURE := -41.
Definition PRIMME_PARALLEL_FAILURE := -43.

(* ---------------------------------------------------------------- *)
(** ** coordinated_exit (src/eigs/primme_c.c 802-816)

    [rets]: the local code of each process.  [reduce]: what globalSumReal
    delivers (the same on all) from the contributions; [ierrs]: the error flag
    it sets on each process.  A process whose code is PRIMME_PARALLEL_FAILURE
    does not call the reduction: if only some processes call it, the call never
    completes ([None]).  [has_sum]: globalSumReal is not NULL.
    Simplification: the 0/1 contributions are integers (exact in HREAL for
    fewer than 2^11 processes in half precision, 2^24 in single). *)
Definition exit_code (total ierr ret : Z) : Z :=
  if negb (ierr =? 0) then PRIMME_USER_FAILURE
  else if total >? 0 then (if negb (ret =? 0) then ret else PRIMME_PARALLEL_FAILURE)
  else ret.

Definition coordinated_exit (has_sum : bool) (reduce : list Z -> Z) (ierrs rets : list Z)
  : option (list Z) :=
  if has_sum then
    if forallb (fun r => r =? PRIMME_PARALLEL_FAILURE) rets then Some rets
    else if existsb (fun r => r =? PRIMME_PARALLEL_FAILURE) rets then None
    else
      let total := reduce (map (fun r => if negb (r =? 0) then 1 else 0) rets) in
      Some (map (fun er => exit_code total (fst er) (snd er)) (combine ierrs rets))
  else Some rets.

(* ---------------------------------------------------------------- *)
(** ** globalSum_Tprimme and broadcast_Tprimme (src/eigs/auxiliary_eigs.c
    391-427, 430-473) *)
Section Wrappers.
Context {A U : Type}.            (* working type; type of the user's callback *)
Variable zero : A.               (* written by Num_zero_matrix_Tprimme *)
Variable cast : A -> U.          (* Num_matrix_astype to the callback's type *)
Variable back : U -> A.          (* and back *)

(** One process: its rank, its buffer and the four counters it updates. *)
Record proc := { pc_id : Z; pc_buf : list A;
  pc_numSum : Z; pc_volSum : Z; pc_numBc : Z; pc_volBc : Z }.

Definition with_buf (p : proc) (b : list A) : proc :=
  {| pc_id := pc_id p; pc_buf := b; pc_numSum := pc_numSum p; pc_volSum := pc_volSum p;
     pc_numBc := pc_numBc p; pc_volBc := pc_volBc p |}.
Definition count_sum (p : proc) : proc :=
  {| pc_id := pc_id p; pc_buf := pc_buf p; pc_numSum := pc_numSum p + 1;
     pc_volSum := pc_volSum p + Z.of_nat (length (pc_buf p));
     pc_numBc := pc_numBc p; pc_volBc := pc_volBc p |}.
Definition count_bc (p : proc) : proc :=
  {| pc_id := pc_id p; pc_buf := pc_buf p; pc_numSum := pc_numSum p; pc_volSum := pc_volSum p;
     pc_numBc := pc_numBc p + 1;
     pc_volBc := pc_volBc p + Z.of_nat (length (pc_buf p)) |}.

(** What the callbacks do: [c_sum] delivers the reduced buffer, [c_bcast] the
    broadcast one (each [None] when the pointer is NULL); the error flag on each
    process is given by rank. *)
Record callbacks := {
  c_sum : option (list (list U) -> list U);
  c_sum_err : Z -> Z;
  c_bcast : option (list (list U) -> list U);
  c_bcast_err : Z -> Z }.

(** globalSum_Tprimme on all processes: code and new state of each. *)
Definition globalSum (c : callbacks) (numProcs : Z) (ps : list proc) : list (Z * proc) :=
  match c_sum c with
  | None => map (fun p => (0, p)) ps
  | Some R =>
      if numProcs =? 1 then map (fun p => (0, p)) ps
      else
        let out := R (map (fun p => map cast (pc_buf p)) ps) in
        map (fun p => if negb (c_sum_err c (pc_id p) =? 0) then (PRIMME_USER_FAILURE, p)
                      else (0, count_sum (with_buf p (map back out)))) ps
  end.

(** broadcast_Tprimme on all processes (430-473). *)
Definition broadcast (c : callbacks) (numProcs : Z) (ps : list proc) : list (Z * proc) :=
  if numProcs =? 1 then map (fun p => (0, p)) ps
  else match c_bcast c with
  | Some B =>
      let out := B (map (fun p => map cast (pc_buf p)) ps) in
      map (fun p => if negb (c_bcast_err c (pc_id p) =? 0) then (PRIMME_USER_FAILURE, p)
                    else (0, count_bc (with_buf p (map back out)))) ps
  | None =>
      let zeroed := map (fun p => if negb (pc_id p =? 0)
                                  then with_buf p (map (fun _ => zero) (pc_buf p)) else p) ps in
      map (fun cp => if negb (fst cp =? 0) then cp else (0, count_bc (snd cp)))
          (globalSum c numProcs zeroed)
  end.
End Wrappers.
Arguments proc : clear implicits.
Arguments callbacks : clear implicits.

(* ---------------------------------------------------------------- *)
(** ** hash_call and PARALLEL_CHECK (src/include/common.h 403-414, 431-455) *)

Definition word : Z := 4294967296.
(** hash_call: the string's characters, then the two words of the double. *)
Definition hash_call (str : list Z) (w0 w1 : Z) : Z :=
  let h := fold_left (fun h c => (h * 33 + c) mod word) str 5381 in
  let h := (h * 33 + w0) mod word in
  (h * 33 + w1) mod word.

(** Effect of adding +0.0f to a float given by its bits, as the emulated
    broadcast does to the root's value: -0 becomes +0, a signalling NaN is
    quieted, everything else is unchanged (IEEE 754). *)
Definition f32_plus_zero (b : Z) : Z :=
  if b =? 2147483648 then 0
  else
    let e := (b / 8388608) mod 256 in
    let m := b mod 8388608 in
    if (e =? 255) && negb (m =? 0) && (m <? 4194304) then b + 4194304 else b.

(** One PARALLEL_CHECK on all processes.  [sites]: for each process the string
    of the call site and the two words of its value; the first is process 0.
    [transport]: what the broadcast, which handles the 32-bit hash as a float,
    does to its bits.  Result: the code returned on each process (0: goes on). *)
Definition parallel_check (transport : Z -> Z) (sites : list (list Z * Z * Z)) : list Z :=
  let hashes := map (fun s => let '(str, w0, w1) := s in hash_call str w0 w1) sites in
  match hashes with
  | [] => []
  | h0 :: _ =>
      let bad := map (fun h => if negb (h =? transport h0) then 1 else 0) hashes in
      let total := fold_right Z.add 0 bad in
      map (fun _ => if negb (total =? 0) then PRIMME_PARALLEL_FAILURE else 0) sites
  end.
