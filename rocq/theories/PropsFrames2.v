(** C19: what a step that keeps nothing leaves behind. *)
From Verif Require Import Base FrameModel FrameProofs PropsFrames.
From Coq Require Import List Arith ZArith Bool Lia Permutation.
Import ListNotations.

(** A function that neither asks to keep its allocations nor is itself an allocator:
    its allocations are made through calls. *)
Fixpoint keeps_nothing (p : prog) : bool :=
  match p with
  | Return _ => true
  | Malloc _ _ _ | Keep _ => false
  | Free _ k | Copy _ _ k => keeps_nothing k
  | Call _ k | CallVal _ k => keeps_nothing k
  end.

Lemma deregister_fk : forall p k r k', deregister p k = Some (r, k') -> map fk k' = map fk k.
Proof.
  induction k as [|f t IH]; intros r k' E; cbn [deregister] in E; [discriminate|].
  destruct (drop_entry p (fe f)) as [[r1 l]|].
  - injection E as <- <-. reflexivity.
  - destruct (deregister p t) as [[r1 t']|]; [|discriminate]. injection E as <- <-.
    cbn [map]. f_equal. eapply IH; reflexivity.
Qed.

Lemma exec_fk : forall mal mrec p s e s1, no_val p = true -> stack s <> [] ->
  exec mal mrec p s = Ret e s1 ->
  length (stack s1) = length (stack s) /\ map fk (tl (stack s1)) = map fk (tl (stack s)) /\
  (keeps_nothing p = true -> map fk (stack s1) = map fk (stack s)).
Proof.
  intros mal mrec. induction p as [e0|x nz k IH|x k IH|k IH|x y k IH|b IHb k IHk|b IHb k IHk];
    intros s e s1 NV NE E; cbn [exec no_val keeps_nothing] in *.
  - injection E as _ <-. auto.
  - unfold num_malloc in E. destruct nz.
    + destruct (mal (tick s) (heap s)) as [p|].
      * set (s0 := register _ _ _) in E.
        assert (A : length (stack s0) = length (stack s) /\ map fk (tl (stack s0)) = map fk (tl (stack s))).
        { unfold s0, register, keep_top, assign. cbn [stack]. destruct (stack s) as [|f t] eqn:Es; [congruence|].
          cbn [touch with_stack stack tick heap]. destruct (mrec _ _); cbn [touch stack tl length map]; auto. }
        destruct A as [A1 A2]. cbn [Z.eqb] in E.
        destruct (IH s0 e s1 NV) as (B1 & B2 & _); [|exact E|].
        { intros C. rewrite C in A1. destruct (stack s); [congruence|discriminate]. }
        rewrite B1, B2. split; [auto|]. split; [auto|discriminate].
      * cbn [Z.eqb] in E. injection E as _ <-. cbn [assign stack]. split; [auto|]. split; [auto|discriminate].
    + cbn [Z.eqb] in E. destruct (IH (assign s x 0) _ _ NV NE E) as (B1 & B2 & _). split; [auto|]. split; [auto|discriminate].
  - unfold num_free in E. destruct (Nat.eqb (env s x) 0).
    + apply (IH _ _ _ NV NE E).
    + destruct (deregister (env s x) (stack s)) as [[r t]|] eqn:D; [|discriminate].
      pose proof (deregister_fk _ _ _ _ D) as F.
      assert (L : length t = length (stack s)) by (rewrite <- (map_length fk), F, map_length; auto).
      destruct (hfree r (heap s)) as [h1|]; [|discriminate].
      destruct (hfree (env s x) h1) as [h2|]; [|discriminate].
      match type of E with exec _ _ _ ?st = _ => destruct (fun H => IH st e s1 NV H E) as (B1 & B2 & B3) end.
      { cbn [with_heap stack]. destruct t; [destruct (stack s); [congruence|discriminate]|discriminate]. }
      cbn [with_heap stack] in B1, B2, B3. split; [congruence|]. split.
      * rewrite B2. destruct t, (stack s); try discriminate; auto. injection F as _ F. exact F.
      * intros K. rewrite (B3 K). exact F.
  - assert (A : length (stack (keep_top s)) = length (stack s) /\ map fk (tl (stack (keep_top s))) = map fk (tl (stack s))).
    { unfold keep_top. destruct (stack s) as [|f t] eqn:Es; [congruence|]. cbn. auto. }
    destruct A as [A1 A2]. destruct (IH (keep_top s) e s1 NV) as (B1 & B2 & _); [|exact E|].
    { intros C. rewrite C in A1. destruct (stack s); [congruence|discriminate]. }
    rewrite B1, B2. split; [auto|]. split; [auto|discriminate].
  - apply (IH (assign s x (env s y)) _ _ NV NE E).
  - apply andb_true_iff in NV. destruct NV as [NVb NVk].
    destruct (exec mal mrec b (push s)) as [e1 s2|q s2|] eqn:Eb; try discriminate.
    destruct (IHb (push s) e1 s2 NVb ltac:(discriminate) Eb) as (B1 & B2 & _).
    cbn [push with_stack stack length tl] in B1, B2.
    assert (U : stack (unwind (S (length (stack s))) s2) = stack s2).
    { unfold unwind. cbn [with_stack stack]. rewrite B1, Nat.sub_diag. reflexivity. }
    set (u := unwind (S (length (stack s))) s2) in *.
    destruct (leave true e1 u) as [[e2 s3]|] eqn:El; [|discriminate].
    assert (A : length (stack s3) = length (stack s) /\ map fk (stack s3) = map fk (stack s)).
    { clear E IHk IHb Eb. rewrite <- U in B1, B2. clearbody u. clear U.
      assert (PC : forall u', pop_clean u = Some u' -> stack u' <> [] /\ tl (stack u') = tl (stack u)).
      { intros u' H. unfold pop_clean in H. destruct (stack u) as [|f t]; [discriminate|].
        destruct (release (fe f) (heap u)); [|discriminate]. injection H as <-. cbn. split; [discriminate|auto]. }
      assert (G : forall l, map fk l = map fk (stack s) -> length l = length (stack s) /\ map fk l = map fk (stack s)).
      { intros l H. split; [rewrite <- (map_length fk), H, map_length; auto|auto]. }
      apply G. unfold leave in El. destruct (Z.eqb e1 0).
      - destruct (pop_frame u) as [[e' u']|] eqn:Ep; [|discriminate].
        unfold pop_frame in Ep. destruct (stack u) as [|f [|g t]] eqn:Es.
        + discriminate.
        + destruct (stack s); [congruence|discriminate].
        + cbn [tl] in B2. destruct (fk f) eqn:K.
          * injection Ep as <- <-. cbn [Z.eqb] in El. injection El as _ <-. cbn. exact B2.
          * destruct (pop_clean u) as [v|] eqn:Ec; [|discriminate]. injection Ep as <- <-.
            cbn [Z.eqb] in El. injection El as _ <-. cbn [with_stack stack]. exact B2.
      - destruct (pop_clean u) as [v|] eqn:Ec; [|discriminate]. injection El as _ <-.
        cbn [with_stack stack]. destruct (PC v eq_refl) as [_ ->]. exact B2. }
    destruct A as [A1 A2].
    assert (A3 : map fk (tl (stack s3)) = map fk (tl (stack s))).
    { destruct (stack s3), (stack s); try discriminate; auto. injection A2 as _ A2. exact A2. }
    destruct (Z.eqb e2 0).
    + destruct (fun H => IHk s3 e s1 NVk H E) as (C1 & C2 & C3).
      { intros C. rewrite C in A1. destruct (stack s); [congruence|discriminate]. }
      split; [congruence|]. split; [congruence|]. intros K. rewrite (C3 K). exact A2.
    + injection E as _ <-. auto.
  - discriminate.
Qed.

(** A step that succeeds and did not ask to keep its allocations leaves no block behind:
    at its end only blocks are live that were live before. *)
Theorem C19_step_releases : forall mal mrec b s rest s',
  honest mal -> honest mrec -> never_fails mrec -> Inv rest s -> stack s <> [] ->
  no_val b = true -> keeps_nothing b = true ->
  exec mal mrec (Call b (Return 0)) s = Ret 0 s' ->
  incl (heap s') (heap s).
Proof.
  intros mal mrec b s rest s' HM HR T I NE NV KN H. cbn [exec] in H.
  pose proof (exec_post mal mrec HM HR b (push s) rest (push_inv _ _ I) ltac:(discriminate)) as P.
  destruct (exec mal mrec b (push s)) as [e1 s1|q s1|] eqn:Eb; cbn [Post] in P; [|discriminate|contradiction].
  destruct (after_body _ _ _ _ _ P) as (lost & I1 & L1 & C1).
  destruct (C1 T NV) as (-> & SH & _).
  destruct (exec_fk mal mrec b (push s) e1 s1 NV ltac:(discriminate) Eb) as (X1 & X2 & X3).
  specialize (X3 KN). cbn [push with_stack stack length tl map fk] in X1, X2, X3.
  assert (U : stack (unwind (S (length (stack s))) s1) = stack s1).
  { unfold unwind. cbn [with_stack stack]. rewrite X1, Nat.sub_diag. reflexivity. }
  set (u := unwind (S (length (stack s))) s1) in *. rewrite U in SH.
  destruct (stack s1) as [|f t] eqn:E1; [discriminate|]. cbn [map tl] in X3, SH. injection X3 as X3 X4.
  destruct (leave true e1 u) as [[e2 s2]|] eqn:El; [|discriminate].
  destruct (pop_clean_ok u _ I1) as (v & Ec & (N1 & P1) & F1 & _ & F & _).
  assert (S2 : heap s2 = heap v /\ e2 = 0%Z -> incl (heap s2) (heap s)).
  { intros [-> _]. destruct I as (_ & P0). cbn [app] in P1.
    intros q Q. apply (Permutation_in _ P1) in Q. apply (Permutation_in _ (Permutation_sym P0)).
    apply in_app_iff in Q. apply in_app_iff. destruct Q as [Q|Q]; [auto|right].
    rewrite F, U in Q. cbn [tl] in Q. apply (shrink_flat _ _ SH). exact Q. }
  unfold leave in El. destruct (Z.eqb e1 0) eqn:Z1.
  - unfold pop_frame in El. rewrite U in El. rewrite X3 in El. rewrite Ec in El. cbn [Z.eqb] in El.
    injection El as <- <-. cbn [Z.eqb] in H. injection H as <-. apply S2. auto.
  - rewrite Ec in El. injection El as <- <-. rewrite Z1 in H. injection H as -> <-. discriminate Z1.
Qed.
Print Assumptions C19_step_releases.

(** A function that allocates two blocks, one of them through a function that keeps it for
    its caller, and releases neither. *)
Definition mal_ex (t : nat) (h : list addr) : option addr := Some (S (list_max h)).
Definition two_blocks : prog :=
  Call (Malloc 1 true (Return 0)) (Call (Keep (Call (Malloc 2 true (Return 0)) (Return 0))) (Return 0)).
Example C19_step_releases_witness :
  honest mal_ex /\ never_fails mal_ex /\ no_val two_blocks = true /\ keeps_nothing two_blocks = true /\
  exists s', exec mal_ex mal_ex (Call two_blocks (Return 0)) (push (before [7] (fun _ => 0))) = Ret 0 s' /\
    heap s' = [7] /\ tick s' = 4.
Proof.
  split; [|split; [|split; [|split]]].
  - unfold honest, mal_ex. intros t h p E. injection E as <-. split; [lia|].
    intros C. pose proof (proj1 (list_max_le h (list_max h)) (le_n _)) as A.
    rewrite Forall_forall in A. specialize (A _ C). lia.
  - unfold never_fails, mal_ex. intros. discriminate.
  - reflexivity.
  - reflexivity.
  - eexists. split; [vm_compute; reflexivity|]. split; reflexivity.
Qed.
