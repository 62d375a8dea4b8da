(** Invariants of the memory manager. *)
From Coq Require Import ZArith List Bool Arith Lia Permutation.
From Verif Require Import FrameModel.
Import ListNotations.

Definition blocks (l : list entry) : list addr := flat_map (fun e => [fst e; snd e]) l.
Definition pool (f : frame) : list addr := blocks (fe f).
Definition flat (k : list frame) : list addr := flat_map pool k.
Definition Inv (rest : list addr) (s : state) : Prop :=
  NoDup (heap s) /\ Permutation (heap s) (rest ++ flat (stack s)).
Definition Reg (s : state) : Prop :=
  forall q, In q (data s) -> exists f, In f (stack s) /\ In q (map fst (fe f)).
Definition shrink (f f' : frame) : Prop := incl (pool f') (pool f).

Fixpoint no_val (p : prog) : bool :=
  match p with
  | Return _ => true
  | Malloc _ _ k | Free _ k | Keep k | Copy _ _ k => no_val k
  | Call b k => no_val b && no_val k
  | CallVal _ _ => false
  end.

Lemma blocks_app : forall a b, blocks (a ++ b) = blocks a ++ blocks b.
Proof. intros; unfold blocks; apply flat_map_app. Qed.

Lemma flat_app : forall a b, flat (a ++ b) = flat a ++ flat b.
Proof. intros; unfold flat; apply flat_map_app. Qed.

Lemma blocks_rev : forall l, Permutation (blocks (rev l)) (blocks l).
Proof.
  induction l as [|e t IH]; cbn [rev]; [constructor|]. rewrite blocks_app.
  cbn [blocks flat_map] in *. rewrite app_nil_r. rewrite Permutation_app_comm.
  apply Permutation_app_head. exact IH.
Qed.

Lemma NoDup_remove_perm : forall p h l, NoDup h -> Permutation h (p :: l) ->
  NoDup (remove Nat.eq_dec p h) /\ Permutation (remove Nat.eq_dec p h) l.
Proof.
  intros p h l N P.
  assert (Nl : NoDup (p :: l)) by (eapply Permutation_NoDup; eauto).
  assert (A : forall q : addr, In q (remove Nat.eq_dec p h) <-> In q l).
  { intro q. split.
    - intro I. apply in_remove in I. destruct I as [I J].
      apply (Permutation_in _ P) in I. destruct I; [congruence|auto].
    - intro I. apply in_in_remove.
      + intro; subst. inversion Nl; auto.
      + apply (Permutation_in _ (Permutation_sym P)). right; auto. }
  assert (NR : NoDup (remove Nat.eq_dec p h)).
  { clear - N. induction h as [|a h IH]; cbn [remove]; [constructor|].
    inversion N; subst. destruct (Nat.eq_dec p a); [auto|].
    constructor; auto. intro I. apply in_remove in I. tauto. }
  split; auto. apply NoDup_Permutation; auto. inversion Nl; auto.
Qed.

Lemma hfree_ok : forall p h l, NoDup h -> Permutation h (p :: l) ->
  exists h', hfree p h = Some h' /\ NoDup h' /\ Permutation h' l.
Proof.
  intros p h l N P. unfold hfree.
  destruct (in_dec Nat.eq_dec p h) as [I|I].
  - eexists. split; [reflexivity|]. now apply NoDup_remove_perm.
  - exfalso. apply I. apply (Permutation_in _ (Permutation_sym P)). left; auto.
Qed.

Lemma release_ok : forall l h rest, NoDup h -> Permutation h (rest ++ blocks l) ->
  exists h', release l h = Some h' /\ NoDup h' /\ Permutation h' rest.
Proof.
  induction l as [|[p r] t IH]; intros h rest N P; cbn [release].
  - exists h. rewrite app_nil_r in P. auto.
  - cbn [blocks flat_map fst snd app] in P.
    destruct (hfree_ok p h (rest ++ r :: blocks t) N) as (h1 & -> & N1 & P1).
    { etransitivity; [exact P|]. symmetry. apply Permutation_middle. }
    destruct (hfree_ok r h1 (rest ++ blocks t) N1) as (h2 & -> & N2 & P2).
    { etransitivity; [exact P1|]. symmetry. apply Permutation_middle. }
    exact (IH h2 rest N2 P2).
Qed.

Lemma drop_entry_some : forall p l r l', drop_entry p l = Some (r, l') ->
  Permutation (blocks l) (p :: r :: blocks l') /\ incl (blocks l') (blocks l) /\
  (forall q, In q (map fst l) -> q <> p -> In q (map fst l')).
Proof.
  induction l as [|[q r0] t IH]; intros r l' H; cbn [drop_entry] in H; [discriminate|].
  destruct (Nat.eqb_spec q p).
  - injection H as <- <-. subst q. cbn [blocks flat_map fst snd app map In].
    split; [reflexivity|]. split.
    + intros a I. right; right; exact I.
    + intros a [A|A] N; [congruence|auto].
  - destruct (drop_entry p t) as [[r' t']|] eqn:E; [|discriminate].
    injection H as <- <-. destruct (IH _ _ eq_refl) as (P & I & K).
    cbn [blocks flat_map fst snd app map In] in *. split; [|split].
    + change (Permutation (q :: r0 :: blocks t) (p :: r' :: q :: r0 :: blocks t')).
      rewrite P.
      change (Permutation ([q; r0] ++ [p; r'] ++ blocks t') ([p; r'] ++ [q; r0] ++ blocks t')).
      rewrite !app_assoc. apply Permutation_app_tail. apply Permutation_app_comm.
    + intros a [A|[A|A]]; [left; auto|right; left; auto|right; right; apply I; auto].
    + intros a [A|A] N; [left; auto|right; apply K; auto].
Qed.

Lemma drop_entry_none : forall p l, drop_entry p l = None -> ~ In p (map fst l).
Proof.
  induction l as [|[q r0] t IH]; intros H; cbn [drop_entry map fst In] in *; auto.
  destruct (Nat.eqb_spec q p); [discriminate|].
  destruct (drop_entry p t) as [[r' t']|] eqn:E; [discriminate|].
  intros [A|A]; [congruence|]. exact (IH eq_refl A).
Qed.

Lemma shrink_refl : forall k, Forall2 shrink k k.
Proof. induction k; constructor; auto. intros a0; auto. Qed.

Lemma shrink_trans : forall a b c, Forall2 shrink a b -> Forall2 shrink b c -> Forall2 shrink a c.
Proof.
  intros a b c H. revert c. induction H; intros c K; inversion K; subst; constructor; auto.
  unfold shrink in *. eapply incl_tran; eauto.
Qed.

Lemma shrink_flat : forall a b, Forall2 shrink a b -> incl (flat b) (flat a).
Proof.
  intros a b H. induction H; [apply incl_refl|]. cbn [flat flat_map].
  apply incl_app; [apply incl_appl; auto|apply incl_appr; auto].
Qed.

Lemma shrink_length : forall a b, Forall2 shrink a b -> length a = length b.
Proof. intros a b H; induction H; cbn; auto. Qed.

Lemma shrink_tl : forall a b, Forall2 shrink a b -> Forall2 shrink (tl a) (tl b).
Proof. intros a b H; destruct H; cbn; auto. Qed.

Lemma deregister_some : forall p k r k', deregister p k = Some (r, k') ->
  Permutation (flat k) (p :: r :: flat k') /\ Forall2 shrink k k' /\
  (forall f q, In f k -> In q (map fst (fe f)) -> q <> p ->
     exists f', In f' k' /\ In q (map fst (fe f'))).
Proof.
  induction k as [|f t IH]; intros r k' H; cbn [deregister] in H; [discriminate|].
  destruct (drop_entry p (fe f)) as [[r0 l]|] eqn:E.
  - injection H as <- <-. destruct (drop_entry_some _ _ _ _ E) as (P & I & K).
    split; [|split].
    + cbn [flat flat_map]. unfold pool at 1 3. cbn [fe].
      change (Permutation (blocks (fe f) ++ flat t) ((p :: r0 :: blocks l) ++ flat t)).
      now apply Permutation_app_tail.
    + constructor; [exact I|apply shrink_refl].
    + intros g q [<-|G] Q N.
      * eexists; split; [left; reflexivity|]. cbn [fe]. apply K; auto.
      * exists g; split; [right; auto|auto].
  - destruct (deregister p t) as [[r' t']|] eqn:D; [|discriminate].
    injection H as <- <-. destruct (IH _ _ eq_refl) as (P & S & K). split; [|split].
    + cbn [flat flat_map]. change (flat_map pool t) with (flat t).
      change (flat_map pool t') with (flat t'). rewrite P.
      change (Permutation (pool f ++ [p; r'] ++ flat t') ([p; r'] ++ pool f ++ flat t')).
      rewrite !app_assoc. apply Permutation_app_tail, Permutation_app_comm.
    + constructor; [apply incl_refl|exact S].
    + intros g q [<-|G] Q N.
      * exists f; split; [left; auto|auto].
      * destruct (K g q G Q N) as (f' & A & B). exists f'. split; [right; auto|auto].
Qed.

Lemma deregister_none : forall p k, deregister p k = None ->
  forall f, In f k -> ~ In p (map fst (fe f)).
Proof.
  induction k as [|f t IH]; intros H g G; cbn [deregister] in H; [destruct G|].
  destruct (drop_entry p (fe f)) as [[r0 l]|] eqn:E; [discriminate|].
  destruct (deregister p t) as [[r' t']|] eqn:D; [discriminate|].
  destruct G as [<-|G]; [now apply drop_entry_none|]. exact (IH eq_refl g G).
Qed.

Lemma without_in : forall l d q, In q (without l d) <-> In q d /\ ~ In q l.
Proof.
  intros. unfold without. rewrite filter_In.
  destruct (in_dec Nat.eq_dec q l); cbn [negb]; intuition congruence.
Qed.

(** Releasing the innermost frame. *)
Lemma pop_clean_ok : forall s rest, Inv rest s ->
  exists s', pop_clean s = Some s' /\ Inv rest s' /\
    tl (stack s') = tl (stack s) /\ length (stack s') = length (stack s) /\
    flat (stack s') = flat (tl (stack s)) /\ Forall2 shrink (stack s) (stack s') /\
    (Reg s -> forall q, In q (data s') ->
       exists f, In f (tl (stack s)) /\ In q (map fst (fe f))).
Proof.
  intros s rest (N & P). unfold pop_clean. destruct (stack s) as [|f t] eqn:E.
  - exists s. rewrite E. repeat split; auto. now rewrite E.
    intros R q Q. destruct (R q Q) as (f & F & _). rewrite E in F. destruct F.
  - cbn [flat flat_map] in P.
    destruct (release_ok (fe f) (heap s) (rest ++ flat t) N) as (h & -> & N' & P').
    { rewrite P. change (flat_map pool t) with (flat t). rewrite <- app_assoc.
      apply Permutation_app_head, Permutation_app_comm. }
    eexists. split; [reflexivity|]. cbn [heap stack data tl length].
    split; [split; cbn [heap stack]; auto|].
    split; [reflexivity|]. split; [reflexivity|]. split; [reflexivity|].
    split; [constructor; [intros a []|apply shrink_refl]|].
    intros R q Q. apply without_in in Q. destruct Q as [Q Q'].
    destruct (R q Q) as (g & G & J). rewrite E in G. destruct G as [<-|G]; [contradiction|].
    exists g; auto.
Qed.

(** Leaving a frame normally. *)
Lemma pop_frame_ok : forall s rest, Inv rest s -> stack s <> [] ->
  exists e s', pop_frame s = Some (e, s') /\ Inv rest s' /\
    ((e = 0%Z /\ length (stack s') = pred (length (stack s)) /\
      Forall2 shrink (tl (tl (stack s))) (tl (stack s')) /\ (Reg s -> Reg s')) \/
     (e = (-1)%Z /\ stack s' = stack s /\ (Reg s -> Reg s') /\ length (stack s) = 1 /\
      flat (stack s) = [])).
Proof.
  intros s rest I NE. unfold pop_frame. destruct (stack s) as [|f t] eqn:E; [congruence|].
  assert (C : exists s', pop_clean s = Some s' /\ Inv rest (with_stack s' t) /\
     (Reg s -> Reg (with_stack s' t))).
  { destruct (pop_clean_ok s rest I) as (s' & H & (N & P) & T & L & F & _ & R).
    exists s'. split; auto. rewrite E in *. cbn [tl] in *.
    split; [split; cbn [heap stack with_stack]; auto; now rewrite F in P|].
    intros R0 q Q. destruct (R R0 q Q) as (g & G & J). exists g; auto. }
  assert (CC : exists e s', match pop_clean s with
      | None => None | Some s' => Some (0%Z, with_stack s' t) end = Some (e, s') /\
     Inv rest s' /\
    ((e = 0%Z /\ length (stack s') = pred (length (f :: t)) /\
      Forall2 shrink (tl (tl (f :: t))) (tl (stack s')) /\ (Reg s -> Reg s')) \/
     (e = (-1)%Z /\ stack s' = f :: t /\ (Reg s -> Reg s') /\ length (f :: t) = 1 /\
      flat (f :: t) = []))).
  { destruct C as (s' & -> & I' & R'). eexists _, _. split; [reflexivity|].
    split; [exact I'|]. left. cbn [stack with_stack length tl pred].
    repeat split; auto. apply shrink_refl. }
  destruct (fk f) eqn:K; [|exact CC].
  destruct t as [|g t'].
  - destruct (fe f) eqn:FE; [|exact CC].
    exists (-1)%Z, (touch s f). split; [reflexivity|]. split; [exact I|]. right.
    cbn [touch stack]. repeat split; auto. cbn [flat flat_map]. unfold pool. now rewrite FE.
  - clear C CC. eexists _, _. split; [reflexivity|].
    split.
    { destruct I as (N & P). split; cbn [touch with_stack heap stack]; auto.
      rewrite E in P. cbn [flat flat_map] in *. unfold pool at 1 in P. unfold pool at 1 in P.
      unfold pool at 1. cbn [fe]. rewrite blocks_app. rewrite blocks_rev.
      rewrite P. apply Permutation_app_head. now rewrite app_assoc. }
    left. cbn [touch with_stack stack length tl pred]. repeat split; auto.
    + apply shrink_refl.
    + intros R q Q. cbn [touch with_stack data stack] in *.
      destruct (R q Q) as (h & H & J). rewrite E in H. destruct H as [<-|[<-|H]].
      * eexists; split; [left; reflexivity|]. cbn [fe]. rewrite map_app, in_app_iff.
        left. rewrite map_rev, <- in_rev. auto.
      * eexists; split; [left; reflexivity|]. cbn [fe]. rewrite map_app, in_app_iff. auto.
      * exists h; split; [right; auto|auto].
Qed.

Section Oracles.
  Variables (mal mrec : nat -> list addr -> option addr).
  Hypothesis mal_ok : forall t h p, mal t h = Some p -> p <> 0 /\ ~ In p h.
  Hypothesis mrec_ok : forall t h p, mrec t h = Some p -> p <> 0 /\ ~ In p h.

  Definition total : Prop := forall t h, mrec t h <> None.

  Definition step (rest : list addr) (s s' : state) (good : Prop) : Prop :=
    exists lost, Inv (lost ++ rest) s' /\ length (stack s) <= length (stack s') /\
      (total -> good -> lost = [] /\ Forall2 shrink (tl (stack s)) (tl (stack s')) /\
         length (stack s') = length (stack s) /\ (Reg s -> Reg s')).

  Definition Post (good : Prop) (rest : list addr) (s : state) (o : outcome) : Prop :=
    match o with
    | Corrupt => False
    | Misuse q s' => exists lost, Inv (lost ++ rest) s' /\
        (total -> good -> lost = [] /\ (Reg s -> ~ In q (data s')))
    | Ret e s' => step rest s s' good
    end.

  Lemma step_refl : forall rest s good, Inv rest s -> step rest s s good.
  Proof.
    intros. exists []. split; [exact H|]. split; [lia|]. intros _ _.
    repeat split; auto. apply shrink_refl.
  Qed.

  Lemma step_Post : forall rest s s' g g' (good : Prop) o,
    step rest s s' g -> (forall r, Inv r s' -> Post g' r s' o) ->
    (good -> g /\ g') -> Post good rest s o.
  Proof.
    intros rest s s' g g' good o (lost & I & L & C) P G. specialize (P _ I).
    destruct o as [e s2|q s2|]; cbn [Post] in *; auto.
    - destruct P as (lost2 & I2 & L2 & C2). exists (lost2 ++ lost).
      rewrite <- app_assoc. split; [exact I2|]. split; [lia|]. intros T GG.
      destruct (G GG) as (G1 & G2). destruct (C T G1) as (-> & F & E & R).
      destruct (C2 T G2) as (-> & F2 & E2 & R2). repeat split; auto.
      + eapply shrink_trans; eauto.
      + congruence.
    - destruct P as (lost2 & I2 & C2). exists (lost2 ++ lost). rewrite <- app_assoc.
      split; [exact I2|]. intros T GG. destruct (G GG) as (G1 & G2).
      destruct (C T G1) as (-> & F & E & R). destruct (C2 T G2) as (-> & D). split; auto.
  Qed.

  Lemma assign_step : forall rest s x p good, Inv rest s -> step rest s (assign s x p) good.
  Proof.
    intros. exists []. split; [exact H|]. cbn [assign stack]. split; [lia|]. intros _ _.
    repeat split; auto. apply shrink_refl.
  Qed.

  Lemma keep_step : forall rest s good, Inv rest s -> step rest s (keep_top s) good.
  Proof.
    intros rest s good I. unfold keep_top. destruct (stack s) as [|f t] eqn:E.
    { apply step_refl; auto. }
    exists []. destruct I as (N & P). rewrite E in *.
    split; [split; cbn [touch with_stack heap stack]; auto|].
    cbn [touch with_stack heap stack length tl]. split; [lia|]. intros _ _.
    repeat split; auto; [apply shrink_refl|].
    intros R q Q. cbn [touch with_stack data stack] in *. destruct (R q Q) as (g & G & J).
    rewrite E in G. destruct G as [<-|G].
    - eexists; split; [left; reflexivity|]. exact J.
    - exists g; split; [right; auto|auto].
  Qed.

  Lemma malloc_step : forall x nz rest s e s' good, Inv rest s -> stack s <> [] ->
    num_malloc mal mrec x nz s = (e, s') -> step rest s s' good.
  Proof.
    intros x nz rest s e s' good (N & P) NE H. unfold num_malloc in H.
    destruct nz; [|injection H as _ <-; apply assign_step; split; auto].
    destruct (mal (tick s) (heap s)) as [p|] eqn:M; [|injection H as _ <-; apply assign_step; split; auto].
    destruct (mal_ok _ _ _ M) as (_ & F). injection H as _ <-.
    unfold register, keep_top. cbn [assign stack heap tick].
    destruct (stack s) as [|f t] eqn:E; [congruence|].
    cbn [assign touch with_stack stack tick heap env data touched_dead fe fk fdead].
    destruct (mrec (S (tick s)) (p :: heap s)) as [r|] eqn:MR.
    - destruct (mrec_ok _ _ _ MR) as (_ & FR). exists []. split.
      + split; cbn [touch heap stack].
        * constructor; [exact FR|]. constructor; auto.
        * cbn [flat flat_map]. unfold pool at 1. cbn [fe blocks flat_map fst snd app].
          cbn [flat flat_map] in P. unfold pool at 1 in P. rewrite P. cbn [app].
          etransitivity; [apply perm_swap|].
          change (Permutation ([p; r] ++ rest ++ (blocks (fe f) ++ flat t))
                              (rest ++ [p; r] ++ (blocks (fe f) ++ flat t))).
          rewrite !app_assoc. do 2 apply Permutation_app_tail. apply Permutation_app_comm.
      + cbn [touch stack length tl]. rewrite E. cbn [length]. split; [lia|]. intros _ _.
        repeat split; auto; [apply shrink_refl|].
        intros R q Q. cbn [touch data stack] in *. destruct Q as [<-|Q].
        * eexists; split; [left; reflexivity|]. cbn [fe map fst]. left; auto.
        * destruct (R q Q) as (g & G & J). rewrite E in G. destruct G as [<-|G].
          -- eexists; split; [left; reflexivity|]. cbn [fe map fst]. right; auto.
          -- exists g; split; [right; auto|auto].
    - exists [p]. split.
      + split; cbn [touch heap stack].
        * constructor; auto.
        * cbn [app]. constructor. exact P.
      + cbn [assign with_stack touch stack length tl]. rewrite E. cbn [length]. split; [lia|]. intros T.
        exfalso. exact (T _ _ MR).
  Qed.

  Lemma free_post : forall x rest s, Inv rest s -> Post True rest s (num_free x s).
  Proof.
    intros x rest s I. unfold num_free.
    destruct (Nat.eqb (env s x) 0); [apply step_refl; auto|].
    destruct (deregister (env s x) (stack s)) as [[r k]|] eqn:D.
    - destruct I as (N & P). destruct (deregister_some _ _ _ _ D) as (Q & S & K).
      set (p := env s x) in *.
      destruct (hfree_ok r (heap s) (p :: rest ++ flat k) N) as (h1 & -> & N1 & P1).
      { rewrite P, Q. etransitivity; [apply Permutation_app_comm|]. cbn [app].
        etransitivity; [apply perm_swap|]. do 2 constructor. apply Permutation_app_comm. }
      destruct (hfree_ok p h1 (rest ++ flat k) N1 P1) as (h2 & -> & N2 & P2).
      cbn [Post]. exists []. split; [split; cbn [with_heap heap stack]; auto|].
      cbn [with_heap stack]. pose proof (shrink_length _ _ S) as L. split; [lia|]. intros _ _.
      repeat split; auto; [apply shrink_tl; auto|].
      intros R q J. cbn [with_heap data stack] in *. apply without_in in J.
      destruct J as [J NJ]. destruct (R q J) as (f & F & G).
      apply (K f q F G). intro; subst q. apply NJ. left; auto.
    - cbn [Post]. exists []. split; [exact I|]. intros _ _. split; auto.
      intros R J. destruct (R _ J) as (f & F & G). exact (deregister_none _ _ D f F G).
  Qed.

  Lemma unwind_ok : forall d rest s, Inv rest s -> d <= length (stack s) ->
    Inv (flat (firstn (length (stack s) - d) (stack s)) ++ rest) (unwind d s) /\
    length (stack (unwind d s)) = d.
  Proof.
    intros d rest s (N & P) L. unfold unwind. split; [split; cbn [with_stack heap stack]; auto|].
    - rewrite P. rewrite <- (firstn_skipn (length (stack s) - d) (stack s)) at 1.
      rewrite flat_app. rewrite !app_assoc. apply Permutation_app_tail, Permutation_app_comm.
    - cbn [with_stack stack]. rewrite skipn_length. lia.
  Qed.

  Lemma unwind_same : forall d s, d = length (stack s) -> stack (unwind d s) = stack s /\
    data (unwind d s) = data s.
  Proof. intros d s ->. unfold unwind. cbn [with_stack stack data]. now rewrite Nat.sub_diag. Qed.

  (** Ending the block of CHKERR and CHKERRVAL. *)
  Lemma leave_ok : forall drop e s rest, Inv rest s -> stack s <> [] ->
    exists e' s', leave drop e s = Some (e', s') /\ Inv rest s' /\
      (e' = 0%Z \/ drop = true ->
         length (stack s') = pred (length (stack s)) /\
         Forall2 shrink (tl (tl (stack s))) (tl (stack s')) /\ (Reg s -> Reg s')) /\
      (e' <> 0%Z -> drop = true ->
         Forall2 shrink (tl (stack s)) (stack s')) /\
      (e' <> 0%Z -> drop = false -> length (stack s') = length (stack s) /\
         flat (stack s') = flat (tl (stack s))) /\
      (e' <> 0%Z -> drop = false -> exists f, stack s' = f :: tl (stack s) /\
         fe f = [] /\ fdead f = true) /\
      (e' <> 0%Z -> e = 0%Z -> length (stack s) = 1) /\
      (e <> 0%Z -> e' = e).
  Proof.
    intros drop e s rest I NE. unfold leave.
    assert (ERR : forall e0 s0, Inv rest s0 -> stack s0 = stack s -> (Reg s -> Reg s0) ->
      e0 <> 0%Z ->
      exists e' s', match pop_clean s0 with
        | None => None
        | Some s' => Some (e0, if drop then with_stack s' (tl (stack s')) else kill_top s')
        end = Some (e', s') /\ e' = e0 /\ Inv rest s' /\
      (e' = 0%Z \/ drop = true ->
         length (stack s') = pred (length (stack s)) /\
         Forall2 shrink (tl (tl (stack s))) (tl (stack s')) /\ (Reg s -> Reg s')) /\
      (e' <> 0%Z -> drop = true ->
         Forall2 shrink (tl (stack s)) (stack s')) /\
      (e' <> 0%Z -> drop = false -> length (stack s') = length (stack s) /\
         flat (stack s') = flat (tl (stack s))) /\
      (e' <> 0%Z -> drop = false -> exists f, stack s' = f :: tl (stack s) /\
         fe f = [] /\ fdead f = true)).
    { intros e0 s0 I0 S0 R0 NZ.
      destruct (pop_clean_ok s0 rest I0) as (s1 & -> & (N1 & P1) & T & L & F & S & R).
      eexists _, _. split; [reflexivity|]. split; [reflexivity|].
      rewrite S0 in *. destruct (stack s) as [|f t] eqn:E; [congruence|].
      destruct (stack s1) as [|f1 t1] eqn:E1; [discriminate L|]. cbn [tl] in *. subst t1.
      assert (PF : pool f1 = []).
      { cbn [flat flat_map] in F. apply (f_equal (@length addr)) in F. cbn in F.
        rewrite app_length in F. destruct (pool f1); auto. cbn in F.
        exfalso. clear - F. unfold flat in F. lia. }
      destruct drop.
      - split; [split; cbn [with_stack heap stack]; auto|].
        { cbn [flat flat_map] in P1. now rewrite PF in P1. }
        cbn [with_stack stack length pred].
        split; [intros _; split; [reflexivity|]; split; [apply shrink_refl|]|].
        { intros R1 q Q. cbn [with_stack data stack] in *.
          destruct (R (R0 R1) q Q) as (g & G & J). exists g; auto. }
        split; [intros _ _; apply shrink_refl|]. split; intros; discriminate.
      - split.
        { unfold kill_top. rewrite E1. split; cbn [with_stack heap stack]; auto. }
        unfold kill_top. rewrite E1. cbn [with_stack stack length].
        split; [intros [X|X]; [contradiction|discriminate]|].
        split; [intros; discriminate|].
        split; [intros _ _; split; auto|].
        intros _ _. eexists; split; [reflexivity|]. cbn [fe fdead]. split; auto.
        unfold pool in PF. destruct (fe f1) as [|[a b] l]; auto. discriminate PF. }
    destruct (Z.eqb_spec e 0) as [->|NZ].
    - destruct (pop_frame_ok s rest I NE) as (e1 & s1 & -> & I1 & [(-> & L & S & R)|(-> & SS & R & L1 & _)]).
      + cbn [Z.eqb]. exists 0%Z, s1. split; [reflexivity|]. split; [exact I1|].
        split; [auto|]. split; [congruence|]. split; [congruence|]. split; [congruence|].
        split; congruence.
      + cbn [Z.eqb]. destruct (ERR (-1)%Z s1 I1 SS R) as (e' & s' & H & -> & Q);
          [discriminate|]. exists (-1)%Z, s'. split; [exact H|].
        destruct Q as (Q1 & Q2 & Q3 & Q4 & Q5).
        split; [exact Q1|]. split; [exact Q2|]. split; [exact Q3|]. split; [exact Q4|].
        split; [exact Q5|]. split; [auto|congruence].
    - destruct (ERR e s I eq_refl (fun r => r) NZ) as (e' & s' & H & -> & Q).
      exists e, s'. split; [exact H|]. destruct Q as (Q1 & Q2 & Q3 & Q4 & Q5).
      split; [exact Q1|]. split; [exact Q2|]. split; [exact Q3|]. split; [exact Q4|].
      split; [exact Q5|]. split; [congruence|auto].
  Qed.

  Lemma push_inv : forall rest s, Inv rest s -> Inv rest (push s).
  Proof. intros rest s (N & P). split; auto. Qed.

  Lemma push_reg : forall s, Reg s -> Reg (push s).
  Proof. intros s R q Q. destruct (R q Q) as (f & F & G). exists f. split; [right; auto|auto]. Qed.

  Lemma nonempty_length : forall {A} (l : list A), 1 <= length l -> l <> [].
  Proof. intros A [|] H; cbn in H; [lia|congruence]. Qed.

  (** The body of a called function, from the caller's point of view. *)
  Lemma after_body : forall rest s s1 (good : Prop), step rest (push s) s1 good ->
    exists lost, Inv (lost ++ rest) (unwind (S (length (stack s))) s1) /\
      length (stack (unwind (S (length (stack s))) s1)) = S (length (stack s)) /\
      (total -> good -> lost = [] /\
         Forall2 shrink (stack s) (tl (stack (unwind (S (length (stack s))) s1))) /\
         (Reg s -> Reg (unwind (S (length (stack s))) s1))).
  Proof.
    intros rest s s1 good (lost & I & L & C). cbn [push with_stack stack length] in L.
    destruct (unwind_ok _ _ _ I L) as (I' & L').
    exists (flat (firstn (length (stack s1) - S (length (stack s))) (stack s1)) ++ lost).
    rewrite <- app_assoc. split; [exact I'|]. split; [exact L'|]. intros T G.
    destruct (C T G) as (-> & F & E & R). cbn [push with_stack stack tl length] in F, E.
    destruct (unwind_same _ _ (eq_sym E)) as (U & UD). split; [|split].
    - rewrite E, Nat.sub_diag. reflexivity.
    - rewrite U. exact F.
    - intros R0 q Q. rewrite UD in Q. rewrite U. exact (R (push_reg s R0) q Q).
  Qed.

  Theorem exec_post : forall p s rest, Inv rest s -> stack s <> [] ->
    Post (no_val p = true) rest s (exec mal mrec p s).
  Proof.
    induction p as [e|x nz k IH|x k IH|k IH|x y k IH|b IHb k IHk|b IHb k IHk];
    intros s rest I NE; cbn [exec no_val].
    - cbn [Post]. apply step_refl; auto.
    - destruct (num_malloc mal mrec x nz s) as [e s'] eqn:M.
      pose proof (malloc_step x nz rest s e s' True I NE M) as S.
      destruct (Z.eqb e 0).
      + eapply (step_Post _ _ _ True (no_val k = true)); [exact S| |auto].
        intros r Ir. apply IH; auto. destruct S as (l & _ & L & _).
        apply nonempty_length. destruct (stack s); [congruence|]. cbn in L. lia.
      + cbn [Post]. exact (malloc_step x nz rest s e s' _ I NE M).
    - pose proof (free_post x rest s I) as F.
      destruct (num_free x s) as [e s'|q s'|]; cbn [Post] in F.
      + eapply (step_Post _ _ _ True (no_val k = true)); [exact F| |auto].
        intros r Ir. apply IH; auto. destruct F as (l & _ & L & _).
        apply nonempty_length. destruct (stack s); [congruence|]. cbn in L. lia.
      + cbn [Post]. destruct F as (l & A & B). exists l. split; auto.
      + contradiction.
    - eapply (step_Post _ _ _ True (no_val k = true)); [apply keep_step; auto| |auto].
      intros r Ir. apply IH; auto. unfold keep_top.
      destruct (stack s) eqn:E; [now rewrite E|discriminate].
    - eapply (step_Post _ _ _ True (no_val k = true)); [apply assign_step; auto| |auto].
      intros r Ir. apply IH; auto.
    - specialize (IHb (push s) rest (push_inv _ _ I) ltac:(discriminate)).
      destruct (exec mal mrec b (push s)) as [e s1|q s1|]; cbn [Post] in IHb.
      + destruct (after_body _ _ _ _ IHb) as (lost & I1 & L1 & C1).
        set (s1' := unwind (S (length (stack s))) s1) in *.
        destruct (leave_ok true e s1' _ I1) as (e2 & s2 & -> & I2 & A & B & _ & _ & _ & _).
        { apply nonempty_length. lia. }
        destruct (A (or_intror eq_refl)) as (LL & SH & RR). rewrite L1 in LL. cbn [pred] in LL.
        assert (ST : step rest s s2 (no_val b = true)).
        { exists lost. split; [exact I2|]. split; [lia|]. intros T G.
          destruct (C1 T G) as (-> & F & R). repeat split; auto.
          eapply shrink_trans; [|exact SH]. apply shrink_tl. exact F. }
        destruct (Z.eqb e2 0).
        * eapply (step_Post _ _ _ (no_val b = true) (no_val k = true)); [exact ST| |].
          -- intros r Ir. apply IHk; auto. apply nonempty_length.
             destruct (stack s); [congruence|]. cbn in LL. lia.
          -- intro G. apply andb_prop in G. exact G.
        * cbn [Post]. destruct ST as (l & S1 & S2 & S3). exists l. split; auto. split; auto.
          intros T G. apply andb_prop in G. apply S3; tauto.
      + cbn [Post]. destruct IHb as (lost & I1 & C). exists lost. split; auto.
        intros T G. apply andb_prop in G. destruct (C T (proj1 G)) as (Q & R).
        split; auto. intro R0. apply R. now apply push_reg.
      + contradiction.
    - specialize (IHb (push s) rest (push_inv _ _ I) ltac:(discriminate)).
      destruct (exec mal mrec b (push s)) as [e s1|q s1|]; cbn [Post] in IHb.
      + destruct (after_body _ _ _ _ IHb) as (lost & I1 & L1 & C1).
        set (s1' := unwind (S (length (stack s))) s1) in *.
        destruct (leave_ok false e s1' _ I1) as (e2 & s2 & -> & I2 & A & _ & B & _ & _ & _).
        { apply nonempty_length. lia. }
        assert (LL : length (stack s) <= length (stack s2)).
        { destruct (Z.eq_dec e2 0) as [Z0|Z0].
          - destruct (A (or_introl Z0)) as (LL & _). rewrite L1 in LL. cbn in LL. lia.
          - destruct (B Z0 eq_refl) as (LL & _). lia. }
        assert (ST : step rest s s2 False).
        { exists lost. split; [exact I2|]. split; [lia|]. intros T []. }
        eapply (step_Post _ _ _ False (no_val k = true)); [exact ST| |discriminate].
        intros r Ir. apply IHk; auto. apply nonempty_length.
        destruct (stack s); [congruence|]. cbn in LL. lia.
      + cbn [Post]. destruct IHb as (lost & I1 & C). exists lost. split; auto. discriminate.
      + contradiction.
  Qed.
End Oracles.
