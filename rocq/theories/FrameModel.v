(** The memory manager: frames of registered allocations (src/linalg/memman.c,
    src/include/common.h 233-283 and 484-578, Num_malloc/Num_free in
    src/linalg/blaslapack.c 94-142), and the driver's use of it
    (src/eigs/primme_c.c 159-232, src/eigs/auxiliary_eigs.c 94-160).

    The model follows the release build (NDEBUG): the [assert]s are absent. *)
From Coq Require Import ZArith List Bool Arith.
Import ListNotations.

Definition addr := nat.       (* 0 is NULL *)
Definition var := nat.

(** memman.h: an allocation record is a heap block of its own; [(p, r)] is the
    record at address [r] for the pointer [p]. *)
Definition entry := (addr * addr)%type.

(** memman.h [primme_frame]: registered allocations (newest first), the
    keep_frame mark and, for the model only, whether the frame is an automatic
    variable whose block has been left. *)
Record frame := { fe : list entry; fk : bool; fdead : bool }.

(** The live heap blocks, the pointer variables, the frames reachable from
    [ctx.mm] (innermost first), the number of calls to malloc so far and, for
    the theorems only: the blocks handed out by Num_malloc and not released
    since, and whether a dead frame has been written or popped (reads by the
    search in Mem_deregister_alloc are not recorded). *)
Record state := {
  heap : list addr; env : var -> addr; stack : list frame;
  tick : nat; data : list addr; touched_dead : bool }.

Definition with_heap (s : state) (h : list addr) : state :=
  {| heap := h; env := env s; stack := stack s; tick := tick s;
     data := data s; touched_dead := touched_dead s |}.
Definition with_stack (s : state) (k : list frame) : state :=
  {| heap := heap s; env := env s; stack := k; tick := tick s;
     data := data s; touched_dead := touched_dead s |}.
Definition assign (s : state) (x : var) (p : addr) : state :=
  {| heap := heap s; env := fun y => if Nat.eqb y x then p else env s y;
     stack := stack s; tick := tick s; data := data s; touched_dead := touched_dead s |}.
Definition touch (s : state) (f : frame) : state :=
  {| heap := heap s; env := env s; stack := stack s; tick := tick s;
     data := data s; touched_dead := touched_dead s || fdead f |}.

(** What a piece of code ends in: a return code, the release of a pointer that
    is not registered (memman.c 271: [a] is NULL when dereferenced), or [free]
    of a block that is not live. *)
Inductive outcome :=
| Ret (e : Z) (s : state)
| Misuse (p : addr) (s : state)
| Corrupt.

(** [free]. *)
Definition hfree (p : addr) (h : list addr) : option (list addr) :=
  if in_dec Nat.eq_dec p h then Some (remove Nat.eq_dec p h) else None.

(** memman.c 169-182, [Mem_pop_clean_frame], the loop: release the pointer and
    its record, newest first. *)
Fixpoint release (l : list entry) (h : list addr) : option (list addr) :=
  match l with
  | [] => Some h
  | (p, r) :: t =>
    match hfree p h with
    | None => None
    | Some h1 => match hfree r h1 with None => None | Some h2 => release t h2 end
    end
  end.

(** memman.c 249-273, [Mem_deregister_alloc]: the first record of [p], looking
    through the frames from the innermost one; the record's address and the
    frames without it. *)
Fixpoint drop_entry (p : addr) (l : list entry) : option (addr * list entry) :=
  match l with
  | [] => None
  | (q, r) :: t =>
    if Nat.eqb q p then Some (r, t)
    else match drop_entry p t with
         | None => None
         | Some (r', t') => Some (r', (q, r) :: t')
         end
  end.

Fixpoint deregister (p : addr) (k : list frame) : option (addr * list frame) :=
  match k with
  | [] => None
  | f :: t =>
    match drop_entry p (fe f) with
    | Some (r, l) => Some (r, {| fe := l; fk := fk f; fdead := fdead f |} :: t)
    | None => match deregister p t with
              | None => None
              | Some (r, t') => Some (r, f :: t')
              end
    end
  end.

Definition without (l d : list addr) : list addr :=
  filter (fun q => negb (if in_dec Nat.eq_dec q l then true else false)) d.

(** common.h 246-248, MEM_PUSH_FRAME. *)
Definition push (s : state) : state :=
  with_stack s ({| fe := []; fk := false; fdead := false |} :: stack s).

(** memman.c 169-182 on the innermost frame; [None] is a corrupted heap. *)
Definition pop_clean (s : state) : option state :=
  match stack s with
  | [] => Some s
  | f :: t =>
    match release (fe f) (heap s) with
    | None => None
    | Some h =>
      Some {| heap := h; env := env s;
              stack := {| fe := []; fk := fk f; fdead := fdead f |} :: t;
              tick := tick s; data := without (map fst (fe f)) (data s);
              touched_dead := touched_dead s || fdead f |}
    end
  end.

(** memman.c 96-158, [Mem_pop_frame]: result code and state.  The loop at
    119-125 moves the records one by one to the front of the previous frame's
    list. *)
Definition pop_frame (s : state) : option (Z * state) :=
  match stack s with
  | [] => Some (0%Z, s)                                           (* 104 *)
  | f :: t =>
    match fk f, t, fe f with
    | true, [], [] => Some ((-1)%Z, touch s f)                    (* 109-112 *)
    | true, g :: t', l =>                                         (* 117-126 *)
        Some (0%Z, touch (touch (with_stack s
          ({| fe := rev l ++ fe g; fk := fk g; fdead := fdead g |} :: t')) f) g)
    | _, _, _ =>                                                  (* 130-156 *)
        match pop_clean s with
        | None => None
        | Some s' => Some (0%Z, with_stack s' t)
        end
    end
  end.

(** Code as seen by the memory manager.  [ctx] is passed by value, so a
    function's changes of [ctx.mm] are not seen by its caller.
    - [Malloc x nz]: the body of Num_malloc; [nz] tells whether the size is
      positive; returns PRIMME_MALLOC_FAILURE (-2) when malloc fails;
    - [Free x]: Num_free;
    - [Keep]: Mem_keep_frame;
    - [Copy x y]: a pointer assignment;
    - [Call b]: CHKERR(f(..., ctx)) with [b] the body of [f];
    - [CallVal b]: CHKERRVAL(f(..., ctx), &ret), which goes on after an error
      (the code is kept in the variable given);
    - [Return e]: return [e]. *)
Inductive prog :=
| Return (e : Z)
| Malloc (x : var) (nz : bool) (k : prog)
| Free (x : var) (k : prog)
| Keep (k : prog)
| Copy (x y : var) (k : prog)
| Call (b k : prog)
| CallVal (b k : prog).

Section Exec.
  (** What malloc answers at the [t]-th request when the live blocks are [h]:
      for data blocks and for the manager's own records. *)
  Variables (mal mrec : nat -> list addr -> option addr).

  (** memman.c 213-231, [Mem_register_alloc], including the allocation of the
      record.  Its own CHKERR is empty-handed, so its frame is not modelled.
      The callers ignore the result when the record cannot be allocated. *)
  Definition register (p : addr) (s : state) : state :=
    match stack s with
    | [] => s
    | f :: t =>
      match mrec (tick s) (heap s) with
      | None => touch s f
      | Some r =>
        touch {| heap := r :: heap s; env := env s;
                 stack := {| fe := (p, r) :: fe f; fk := fk f; fdead := fdead f |} :: t;
                 tick := S (tick s); data := data s; touched_dead := touched_dead s |} f
      end
    end.

  (** memman.c 195-201. *)
  Definition keep_top (s : state) : state :=
    match stack s with
    | [] => s
    | f :: t => touch (with_stack s ({| fe := fe f; fk := true; fdead := fdead f |} :: t)) f
    end.

  (** blaslapack.c 94-115. *)
  Definition num_malloc (x : var) (nz : bool) (s : state) : Z * state :=
    if nz then
      match mal (tick s) (heap s) with
      | None => ((-2)%Z, assign s x 0)
      | Some p =>
        let s := {| heap := p :: heap s; env := env s; stack := stack s;
                    tick := S (tick s); data := p :: data s;
                    touched_dead := touched_dead s |} in
        (0%Z, register p (keep_top (assign s x p)))
      end
    else (0%Z, assign s x 0).

  (** blaslapack.c 127-142. *)
  Definition num_free (x : var) (s : state) : outcome :=
    let p := env s x in
    if Nat.eqb p 0 then Ret 0%Z s
    else
      match deregister p (stack s) with
      | None => Misuse p s
      | Some (r, k) =>
        let s1 := {| heap := heap s; env := env s; stack := k; tick := tick s;
                     data := without [p] (data s); touched_dead := touched_dead s |} in
        match hfree r (heap s) with
        | None => Corrupt
        | Some h1 => match hfree p h1 with
                     | None => Corrupt
                     | Some h2 => Ret 0%Z (with_heap s1 h2)
                     end
        end
      end.

  (** The caller's [ctx.mm] after a call: its own frame, whatever the callee
      left on top of it. *)
  Definition unwind (d : nat) (s : state) : state :=
    with_stack s (skipn (length (stack s) - d) (stack s)).

  Definition kill_top (s : state) : state :=
    match stack s with
    | [] => s
    | f :: t => with_stack s ({| fe := fe f; fk := fk f; fdead := true |} :: t)
    end.

  (** common.h 259-282 (MEM_POP_FRAME) after a call that returned [e]: the
      code and the state at the end of the block; [drop] tells whether the
      function then returns on error (CHKERR) or goes on with [ctx.mm] still
      pointing at the block's frame (CHKERRVAL). *)
  Definition leave (drop : bool) (e : Z) (s : state) : option (Z * state) :=
    let on_error (e : Z) (s : state) :=
      match pop_clean s with
      | None => None
      | Some s' => Some (e, if drop then with_stack s' (tl (stack s')) else kill_top s')
      end in
    if Z.eqb e 0 then
      match pop_frame s with
      | None => None
      | Some (e', s') => if Z.eqb e' 0 then Some (0%Z, s') else on_error (-1)%Z s'
      end
    else on_error e s.

  Fixpoint exec (p : prog) (s : state) : outcome :=
    match p with
    | Return e => Ret e s
    | Malloc x nz k =>
      let (e, s') := num_malloc x nz s in if Z.eqb e 0 then exec k s' else Ret e s'
    | Free x k =>
      match num_free x s with
      | Ret _ s' => exec k s'
      | o => o
      end
    | Keep k => exec k (keep_top s)
    | Copy x y k => exec k (assign s x (env s y))
    | Call b k =>                                     (* common.h 484-494 *)
      match exec b (push s) with
      | Ret e s1 =>
        match leave true e (unwind (S (length (stack s))) s1) with
        | None => Corrupt
        | Some (e', s2) => if Z.eqb e' 0 then exec k s2 else Ret e' s2
        end
      | o => o
      end
    | CallVal b k =>                                  (* common.h 569-578 *)
      match exec b (push s) with
      | Ret e s1 =>
        match leave false e (unwind (S (length (stack s))) s1) with
        | None => Corrupt
        | Some (_, s2) => exec k s2
        end
      | o => o
      end
    end.

  (** memman.c 57-85, [Mem_push_frame]: the frame is a heap block registered in
      itself. *)
  Definition push_context (s : state) : state :=
    match mrec (tick s) (heap s) with
    | None => s
    | Some f =>
      match mrec (S (tick s)) (f :: heap s) with
      | None => s                                       (* [free(f)] *)
      | Some a =>
        {| heap := a :: f :: heap s; env := env s;
           stack := {| fe := [(f, a)]; fk := false; fdead := false |} :: stack s;
           tick := S (S (tick s)); data := data s; touched_dead := touched_dead s |}
      end
    end.

  (** primme_c.c 159-232, Xprimme_aux: context, CHKERRVAL(wrapper(...), &ret),
      primme_free_context.  [b] is the body of the wrapper. *)
  Definition driver_call (b : prog) (s : state) : outcome :=
    let s := push_context s in
    match exec b (push s) with
    | Ret e s1 =>
      match leave false e (unwind (S (length (stack s))) s1) with
      | None => Corrupt
      | Some (ret, s2) =>
        match pop_frame s2 with                          (* primme_free_context *)
        | None => Corrupt
        | Some (_, s3) => Ret ret s3
        end
      end
    | o => o
    end.
End Exec.
