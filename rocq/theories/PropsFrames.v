(** Property theorem C19: memory is neither leaked nor released twice. *)
From Coq Require Import ZArith List Bool Arith Lia Permutation.
From Verif Require Import FrameModel FrameProofs.
Import ListNotations.

(** What is assumed of malloc: a non-NULL block that is not in use. *)
Definition honest (m : nat -> list addr -> option addr) : Prop :=
  forall t h p, m t h = Some p -> p <> 0 /\ ~ In p h.

(** malloc for the manager's own (small) records never fails. *)
Definition never_fails (m : nat -> list addr -> option addr) : Prop :=
  forall t h, m t h <> None.

(** The process before a call to the solver: [h0] are its live blocks, [v] its
    pointer variables. *)
Definition before (h0 : list addr) (v : var -> addr) : state :=
  {| heap := h0; env := v; stack := []; tick := 0; data := []; touched_dead := false |}.

Lemma context_cases : forall mrec h0 v, honest mrec -> NoDup h0 ->
  let s := push_context mrec (before h0 v) in
  Inv h0 s /\ Reg s /\
  (never_fails mrec -> exists f a, length (stack s) = 1 /\
     stack s = [{| fe := [(f, a)]; fk := false; fdead := false |}]).
Proof.
  intros mrec h0 v H N. cbv zeta. unfold push_context. cbn [before tick heap].
  destruct (mrec 0 h0) as [f|] eqn:E1.
  - destruct (mrec 1 (f :: h0)) as [a|] eqn:E2.
    + destruct (H _ _ _ E1) as (_ & F1). destruct (H _ _ _ E2) as (_ & F2).
      split; [split; cbn [heap stack]|split].
      * constructor; auto. constructor; auto.
      * cbn [flat flat_map]. unfold pool. cbn [fe blocks flat_map fst snd app].
        change (Permutation ([a; f] ++ h0) (h0 ++ [f; a])).
        rewrite Permutation_app_comm. apply Permutation_app_head. constructor.
      * intros q [].
      * intros _. exists f, a. auto.
    + split; [split; cbn; auto; now rewrite app_nil_r|]. split; [intros q []|].
      intro T. destruct (T _ _ E2).
  - split; [split; cbn; auto; now rewrite app_nil_r|]. split; [intros q []|].
    intro T. destruct (T _ _ E1).
Qed.

(** No block is ever released twice, nor is any block released that is not in
    use: for every program (whatever it allocates, releases, keeps and calls,
    and wherever an error occurs), and however malloc answers. *)
Theorem C19_no_double_release : forall mal mrec b h0 v,
  honest mal -> honest mrec -> NoDup h0 ->
  driver_call mal mrec b (before h0 v) <> Corrupt.
Proof.
  intros mal mrec b h0 v HM HR N. unfold driver_call.
  destruct (context_cases mrec h0 v HR N) as (I & _ & _).
  set (s := push_context mrec (before h0 v)) in *. cbv zeta.
  pose proof (exec_post mal mrec HM HR b (push s) h0 (push_inv _ _ I) ltac:(discriminate)) as P.
  destruct (exec mal mrec b (push s)) as [e s1|q s1|]; cbn [Post] in P; [|discriminate|contradiction].
  destruct (after_body _ _ _ _ _ P) as (lost & I1 & L1 & _).
  destruct (leave_ok false e _ _ I1) as (e2 & s2 & -> & I2 & _).
  { apply nonempty_length. lia. }
  destruct (stack s2) as [|f t] eqn:E.
  - unfold pop_frame. rewrite E. discriminate.
  - destruct (pop_frame_ok s2 _ I2) as (e3 & s3 & -> & _); [now rewrite E|discriminate].
Qed.

(** The release of a block that Num_malloc handed out and that has not been
    released since never fails; [no_val] excludes code that goes on after a
    failed step (CHKERRVAL), which only the drivers use. *)
Theorem C19_release_finds_block : forall mal mrec b h0 v p s,
  honest mal -> honest mrec -> never_fails mrec -> NoDup h0 -> no_val b = true ->
  driver_call mal mrec b (before h0 v) = Misuse p s -> ~ In p (data s).
Proof.
  intros mal mrec b h0 v p s' HM HR T N NV D. unfold driver_call in D.
  destruct (context_cases mrec h0 v HR N) as (I & R & _).
  set (s := push_context mrec (before h0 v)) in *. cbv zeta in D.
  pose proof (exec_post mal mrec HM HR b (push s) h0 (push_inv _ _ I) ltac:(discriminate)) as P.
  destruct (exec mal mrec b (push s)) as [e s1|q s1|]; cbn [Post] in P; [|injection D as <- <-|contradiction].
  - destruct (leave _ _ _) as [[e2 s2]|]; [|discriminate].
    destruct (pop_frame s2) as [[e3 s3]|]; discriminate.
  - destruct P as (lost & _ & C). apply (C T NV). now apply push_reg.
Qed.

(** After a successful call every block allocated during the call is released
    and no other block is. *)
Theorem C19_success_no_leak : forall mal mrec b h0 v s,
  honest mal -> honest mrec -> never_fails mrec -> NoDup h0 -> no_val b = true ->
  driver_call mal mrec b (before h0 v) = Ret 0 s -> Permutation (heap s) h0.
Proof.
  intros mal mrec b h0 v s' HM HR T N NV D. unfold driver_call in D.
  destruct (context_cases mrec h0 v HR N) as (I & R & C).
  destruct (C T) as (f & a & LC & EC).
  set (s := push_context mrec (before h0 v)) in *. cbv zeta in D.
  pose proof (exec_post mal mrec HM HR b (push s) h0 (push_inv _ _ I) ltac:(discriminate)) as P.
  destruct (exec mal mrec b (push s)) as [e s1|q s1|]; cbn [Post] in P; [|discriminate|contradiction].
  destruct (after_body _ _ _ _ _ P) as (lost & I1 & L1 & C1).
  destruct (C1 T NV) as (-> & SH & _).
  destruct (leave_ok false e _ _ I1) as (e2 & s2 & E2 & I2 & A & _).
  { apply nonempty_length. lia. }
  rewrite E2 in D.
  destruct (pop_frame s2) as [[e3 s3]|] eqn:E3; [|discriminate].
  injection D as -> <-.
  destruct (A (or_introl eq_refl)) as (L2 & _). rewrite L1, LC in L2. cbn [pred] in L2.
  destruct (pop_frame_ok s2 _ I2) as (e4 & s4 & E4 & (N4 & P4) & Q).
  { apply nonempty_length. lia. }
  rewrite E4 in E3. injection E3 as -> ->. cbn [app] in P4.
  destruct Q as [(_ & L4 & _)|(_ & S4 & _ & _ & F4)].
  - destruct (stack s3); [|rewrite L2 in L4; discriminate L4].
    cbn [flat flat_map] in P4. now rewrite app_nil_r in P4.
  - rewrite S4, F4, app_nil_r in P4. exact P4.
Qed.

(** After a failed call everything allocated on behalf of the solver is
    released too, with the exception of the driver's own context: the frame
    [f] and its record [a]. *)
Theorem C19_failure_releases_work : forall mal mrec b h0 v e s,
  honest mal -> honest mrec -> never_fails mrec -> NoDup h0 -> no_val b = true ->
  driver_call mal mrec b (before h0 v) = Ret e s -> e <> 0%Z ->
  exists f a l, Permutation (heap s) (h0 ++ l) /\ incl l [f; a] /\ ~ In f h0 /\ ~ In a h0.
Proof.
  intros mal mrec b h0 v e s' HM HR T N NV D NZ. unfold driver_call in D.
  destruct (context_cases mrec h0 v HR N) as (I & R & C).
  destruct (C T) as (f & a & LC & EC).
  set (s := push_context mrec (before h0 v)) in *. cbv zeta in D.
  assert (FA : ~ In f h0 /\ ~ In a h0).
  { destruct I as (NI & PI). rewrite EC in PI. cbn [flat flat_map] in PI. unfold pool in PI.
    cbn [fe blocks flat_map fst snd app] in PI.
    pose proof (Permutation_NoDup PI NI) as ND.
    split; intro X.
    - apply (NoDup_remove_2 h0 [a] f) in ND. apply ND. apply in_or_app. auto.
    - change (h0 ++ [f; a]) with (h0 ++ [f] ++ [a]) in ND. rewrite app_assoc in ND.
      apply (NoDup_remove_2 (h0 ++ [f]) [] a) in ND. apply ND. rewrite app_nil_r.
      apply in_or_app. auto. }
  pose proof (exec_post mal mrec HM HR b (push s) h0 (push_inv _ _ I) ltac:(discriminate)) as P.
  destruct (exec mal mrec b (push s)) as [e1 s1|q s1|]; cbn [Post] in P; [|discriminate|contradiction].
  destruct (after_body _ _ _ _ _ P) as (lost & I1 & L1 & C1).
  destruct (C1 T NV) as (-> & SH & _).
  destruct (leave_ok false e1 _ _ I1) as (e2 & s2 & E2 & I2 & _ & _ & B & DD & _ & _).
  { apply nonempty_length. lia. }
  rewrite E2 in D.
  destruct (pop_frame s2) as [[e3 s3]|] eqn:E3; [|discriminate].
  injection D as <- <-.
  destruct (B NZ eq_refl) as (L2 & F2). destruct (DD NZ eq_refl) as (g & G & GE & _).
  destruct I2 as (N2 & P2). cbn [app] in P2. rewrite F2 in P2.
  assert (IN : incl (flat (tl (stack (unwind (S (length (stack s))) s1)))) [f; a]).
  { eapply incl_tran; [apply (shrink_flat _ _ SH)|]. rewrite EC. cbn. apply incl_refl. }
  assert (H3 : heap s3 = heap s2).
  { unfold pop_frame in E3. rewrite G in E3. rewrite GE in E3. destruct (fk g).
    - destruct (tl (stack (unwind (S (length (stack s))) s1))); injection E3 as _ <-; reflexivity.
    - unfold pop_clean in E3. rewrite G, GE in E3. cbn [release] in E3.
      injection E3 as _ <-. reflexivity. }
  exists f, a, (flat (tl (stack (unwind (S (length (stack s))) s1)))).
  rewrite H3. split; [exact P2|]. split; [exact IN|]. exact FA.
Qed.

(** The exception is real: whenever the first step of the solver fails (for
    instance the validation of the parameters), the call ends with two blocks
    more than before, and the driver has popped a frame that was an automatic
    variable of a block already left. *)
Theorem C19_failed_call_leaks_refuted : forall mal mrec h0 v e k,
  honest mrec -> never_fails mrec -> e <> 0%Z ->
  exists f a s, driver_call mal mrec (Call (Return e) k) (before h0 v) = Ret e s /\
    heap s = a :: f :: h0 /\ ~ In f h0 /\ ~ In a h0 /\ touched_dead s = true.
Proof.
  intros mal mrec h0 v e k H T NZ. unfold driver_call, push_context.
  cbn [before tick heap stack env data touched_dead].
  destruct (mrec 0 h0) as [f|] eqn:E1; [|destruct (T _ _ E1)].
  destruct (mrec 1 (f :: h0)) as [a|] eqn:E2; [|destruct (T _ _ E2)].
  destruct (H _ _ _ E1) as (_ & F1). destruct (H _ _ _ E2) as (_ & F2).
  exists f, a. destruct e as [|e|e]; [congruence| |];
  (exists {| heap := a :: f :: h0; env := v;
             stack := [{| fe := [(f, a)]; fk := false; fdead := false |}];
             tick := 2; data := []; touched_dead := true |};
   split; [vm_compute; reflexivity|]; cbn [heap]; repeat split; auto;
   intro X; apply F2; right; exact X).
Qed.

(** A block obtained with CHKERR(Num_malloc(...)) is in use after the step, it
    was not before, and it is registered with the function that asked for it. *)
Theorem C19_allocation_survives : forall mal mrec x s f t e s',
  honest mal -> honest mrec -> never_fails mrec -> stack s = f :: t ->
  exec mal mrec (Call (Malloc x true (Return 0)) (Return 0)) s = Ret e s' -> e = 0%Z ->
  exists r g, In (env s' x) (heap s') /\ ~ In (env s' x) (heap s) /\
    stack s' = g :: t /\ fe g = (env s' x, r) :: fe f.
Proof.
  intros mal mrec x s f t e s' HM HR T ST H E. cbn [exec] in H. unfold num_malloc in H.
  cbn [push with_stack heap tick stack] in H.
  destruct (mal (tick s) (heap s)) as [p|] eqn:M.
  - unfold register, keep_top in H.
    cbn [assign push touch with_stack stack heap tick env data touched_dead fe fk fdead] in H.
    destruct (mrec (S (tick s)) (p :: heap s)) as [r|] eqn:R; [|destruct (T _ _ R)].
    cbn [Z.eqb touch stack] in H. unfold leave, unwind in H.
    cbn [Z.eqb touch with_stack stack heap tick env data touched_dead fe fk fdead length] in H.
    rewrite Nat.sub_diag in H. cbn [skipn] in H. unfold pop_frame in H.
    cbn [with_stack stack fk fe] in H. rewrite ST in H. cbn [Z.eqb rev app] in H.
    injection H as _ <-. cbn [touch with_stack stack env heap].
    rewrite Nat.eqb_refl. exists r. eexists. repeat split.
    + right; left; reflexivity.
    + apply (HM _ _ _ M).
  - exfalso. cbn [Z.eqb] in H. unfold leave, unwind in H.
    cbn [Z.eqb assign push with_stack stack length] in H. rewrite Nat.sub_diag in H.
    cbn [skipn] in H. unfold pop_clean in H. cbn [with_stack stack fe release] in H.
    cbn [Z.eqb] in H. injection H as <- _. discriminate E.
Qed.

(** When a step fails, all blocks allocated since its start are released.
    [Inv rest s]: the live blocks are [rest] and those registered. *)
Theorem C19_failed_step_releases : forall mal mrec b s rest e s',
  honest mal -> honest mrec -> never_fails mrec -> Inv rest s -> no_val b = true ->
  exec mal mrec (Call b (Return 0)) s = Ret e s' -> e <> 0%Z ->
  incl (heap s') (heap s).
Proof.
  intros mal mrec b s rest e s' HM HR T I NV H NZ. cbn [exec] in H.
  pose proof (exec_post mal mrec HM HR b (push s) rest (push_inv _ _ I) ltac:(discriminate)) as P.
  destruct (exec mal mrec b (push s)) as [e1 s1|q s1|]; cbn [Post] in P; [|discriminate|contradiction].
  destruct (after_body _ _ _ _ _ P) as (lost & I1 & L1 & C1).
  destruct (C1 T NV) as (-> & SH & _).
  destruct (leave_ok true e1 _ _ I1) as (e2 & s2 & E2 & I2 & _ & B & _).
  { apply nonempty_length. lia. }
  rewrite E2 in H. destruct (Z.eqb_spec e2 0) as [->|Z2]; [injection H as <- _; congruence|].
  injection H as <- <-. specialize (B Z2 eq_refl).
  destruct I as (_ & P0). destruct I2 as (_ & P2). cbn [app] in P2.
  intros q Q. apply (Permutation_in _ P2) in Q. apply (Permutation_in _ (Permutation_sym P0)).
  apply in_app_iff in Q. apply in_app_iff. destruct Q as [Q|Q]; [auto|right].
  apply (shrink_flat _ _ SH). apply (shrink_flat _ _ B). exact Q.
Qed.

(** Leaving a frame: its blocks are released, unless the function asked to
    keep them, in which case all of them pass to the enclosing function. *)
Theorem C19_leave_frame : forall s rest f g t,
  Inv rest s -> stack s = f :: g :: t ->
  exists s', pop_frame s = Some (0%Z, s') /\
    (fk f = false -> stack s' = g :: t /\ Permutation (heap s) (pool f ++ heap s')) /\
    (fk f = true -> heap s' = heap s /\ exists g', stack s' = g' :: t /\
       Permutation (fe g') (fe f ++ fe g)).
Proof.
  intros s rest f g t I E. unfold pop_frame. rewrite E. destruct (fk f) eqn:K.
  - eexists. split; [reflexivity|]. split; [discriminate|]. intros _. split; [reflexivity|].
    eexists. cbn [touch with_stack stack]. split; [reflexivity|]. cbn [fe].
    apply Permutation_app_tail. symmetry. apply Permutation_rev.
  - destruct (pop_clean_ok s rest I) as (s1 & -> & (N1 & P1) & _ & _ & F & _).
    eexists. split; [reflexivity|]. split; [intros _|discriminate].
    cbn [with_stack stack heap]. split; [reflexivity|].
    destruct I as (_ & P). rewrite E in F, P. cbn [tl] in F. rewrite F in P1.
    rewrite P1, P. cbn [flat flat_map]. rewrite !app_assoc. do 2 apply Permutation_app_tail.
    apply Permutation_app_comm.
Qed.

(** When the record of a new block cannot be allocated the block is handed out
    unregistered (the result of Mem_register_alloc is ignored): its release
    crashes although the block is in use. *)
Theorem C19_record_failure_refuted : exists mal mrec b h0 v p s,
  honest mal /\ honest mrec /\ NoDup h0 /\ no_val b = true /\
  driver_call mal mrec b (before h0 v) = Misuse p s /\ In p (data s) /\ In p (heap s).
Proof.
  set (mal := fun (t : nat) (h : list addr) => Some (S (list_sum h))).
  set (mrec := fun (t : nat) (h : list addr) =>
                 if Nat.eqb t 3 then None else Some (S (list_sum h))).
  set (b := Call (Malloc 0 true (Return 0)) (Call (Free 0 (Return 0)) (Return 0))).
  assert (FR : forall h, ~ In (S (list_sum h)) h).
  { intros h J. assert (LS : forall x, In x h -> x <= list_sum h).
    { clear. unfold list_sum. induction h as [|y h IH]; cbn [fold_right In]; [intros x []|].
      intros x [->|J']; [lia|]. specialize (IH x J'). lia. }
    specialize (LS _ J). lia. }
  assert (D : match driver_call mal mrec b (before [] (fun _ => 0)) with
              | Misuse p s => existsb (Nat.eqb p) (data s) && existsb (Nat.eqb p) (heap s)
              | _ => false end = true) by (vm_compute; reflexivity).
  assert (EX : forall p l, existsb (Nat.eqb p) l = true -> In p l).
  { intros p l X. apply existsb_exists in X. destruct X as (y & Y & Q).
    apply Nat.eqb_eq in Q. now subst y. }
  exists mal, mrec, b, [], (fun _ => 0).
  destruct (driver_call mal mrec b (before [] (fun _ => 0))) as [e s|p s|];
    [discriminate| |discriminate].
  apply andb_prop in D. exists p, s.
  split; [intros t h q Q; injection Q as <-; split; [discriminate|apply FR]|].
  split; [intros t h q Q; unfold mrec in Q; destruct (Nat.eqb t 3); [discriminate|];
          injection Q as <-; split; [discriminate|apply FR]|].
  split; [constructor|]. split; [reflexivity|]. split; [reflexivity|].
  split; apply EX; tauto.
Qed.

(** A frame without enclosing frame that is asked to keep its blocks loses
    them, and reports an error only when it has none (the test at memman.c 109
    is the wrong way round); this needs the driver's context to be missing. *)
Theorem C19_outermost_keep_refuted :
  (exists s s' p r, stack s = [{| fe := [(p, r)]; fk := true; fdead := false |}] /\
     pop_frame s = Some (0%Z, s') /\ In p (heap s) /\ ~ In p (heap s')) /\
  (exists s, stack s = [{| fe := []; fk := true; fdead := false |}] /\
     exists s', pop_frame s = Some ((-1)%Z, s')).
Proof.
  split.
  - exists {| heap := [5; 6]; env := fun _ => 0;
              stack := [{| fe := [(5, 6)]; fk := true; fdead := false |}];
              tick := 0; data := [5]; touched_dead := false |}.
    eexists _, 5, 6. repeat split; try reflexivity; cbn; auto.
  - exists {| heap := []; env := fun _ => 0;
              stack := [{| fe := []; fk := true; fdead := false |}];
              tick := 0; data := []; touched_dead := false |}.
    split; [reflexivity|]. eexists. reflexivity.
Qed.

(** A program with nested calls, ownership transfer and an error: it meets the
    hypotheses, and releases everything. *)
Definition sample (e : Z) : prog :=
  Call (Keep (Call (Malloc 0 true (Return 0)) (Return 0)))          (* returns block 0 *)
  (Call (Malloc 1 true (Return 0))
  (Call (Call (Malloc 2 true (Return 0)) (Call (Free 2 (Return 0)) (Return e)))
  (Call (Free 1 (Return 0)) (Call (Free 0 (Return 0)) (Return 0))))).

Example C19_nonvacuous :
  let m := fun (_ : nat) h => Some (S (list_sum h)) in
  no_val (sample 0) = true /\
  match driver_call m m (sample 0) (before [3; 9] (fun _ => 0)) with
  | Ret e s => e = 0%Z /\ heap s = [3; 9] /\ touched_dead s = false
  | _ => False
  end /\
  match driver_call m m (sample (-30)) (before [3; 9] (fun _ => 0)) with
  | Ret e s => e = (-30)%Z /\ length (heap s) = 4 /\ touched_dead s = true
  | _ => False
  end.
Proof. vm_compute. repeat split. Qed.

Print Assumptions C19_no_double_release.
Print Assumptions C19_release_finds_block.
Print Assumptions C19_success_no_leak.
Print Assumptions C19_failure_releases_work.
Print Assumptions C19_failed_call_leaks_refuted.
Print Assumptions C19_allocation_survives.
Print Assumptions C19_failed_step_releases.
Print Assumptions C19_leave_frame.
Print Assumptions C19_record_failure_refuted.
Print Assumptions C19_outermost_keep_refuted.
