(** C60: settings that differ between processes are rejected on all of them. *)
From Coq Require Import ZArith List Bool Lia.
From Verif Require Import Base ParallelModel PropsParallel CoherenceModel.
Import ListNotations.
Open Scope Z_scope.

(** Specification: the processes agree on the members when the checksum of each member is
    that of the root as the broadcast delivers it. *)
Definition hash_of (m : list Z * Z * Z) : Z := let '(s, w0, w1) := m in hash_call s w0 w1.
Definition agree (deliv : Z -> Z) (root : data) (all : list data) : Prop :=
  forall i e, In e all -> (i < length (d_members root))%nat ->
    hash_of (nth i (d_members e) ([], 0, 0)) = deliv (hash_of (nth i (d_members root) ([], 0, 0))).
Definition ids_zero (all : list data) : nat := length (filter (fun e => d_procID e =? 0) all).
(** At least two processes that know they are several and have the same callbacks and code. *)
Definition several (b : bool) (all : list data) : Prop :=
  (2 <= length all)%nat /\
  forall e, In e all -> 1 < d_numProcs e /\ d_sum e = true /\ d_bcast e = b /\
    forall e', In e' all -> length (d_members e') = length (d_members e).

Section Proofs.
Variable bb : Z -> Z. Variable sb : list Z -> Z. Variable T : Z -> Z.
Hypothesis sb_one : forall l1 x l2, Forall (eq 0) l1 -> Forall (eq 0) l2 -> sb (l1 ++ x :: l2) = T x.
Variable b : bool. Variable d : data. Variable ds : list data.
Hypothesis Hs : several b (d :: ds).
Notation all := (d :: ds).
Definition go (q : data -> prog) : fate := run bb sb (q d) (map q ds).

Lemma go_ext q q' : (forall e, In e all -> q e = q' e) -> go q = go q'.
Proof.
  intros H. unfold go. rewrite (H d) by (left; auto). f_equal. apply map_ext_in. intros e He. apply H. now right.
Qed.
Lemma go_coll k n (f : data -> list Z) (c : data -> list Z -> prog) : (forall e, In e all -> length (f e) = n) ->
  go (fun e => Coll k (f e) (c e)) = let out := deliver bb sb k (f d) (map f ds) in go (fun e => c e out).
Proof.
  intros Hn. unfold go at 1. cbn [run]. rewrite (Hn d) by (left; auto).
  assert (E : forallb (joins k n) (map (fun e => Coll k (f e) (c e)) ds) = true).
  { apply forallb_forall. intros q Hq. apply in_map_iff in Hq. destruct Hq as (e & <- & He). cbn [joins].
    rewrite (Hn e) by (right; auto). rewrite Nat.eqb_refl. destruct k; reflexivity. }
  rewrite E. cbv zeta. rewrite !map_map. reflexivity.
Qed.
Lemma go_ret z : go (fun _ => Ret z) = AllReturn (map (fun _ => z) all).
Proof.
  unfold go. cbn [run]. assert (E : forallb returned (map (fun _ => Ret z) ds) = true).
  { apply forallb_forall. intros q Hq. apply in_map_iff in Hq. destruct Hq as (e & <- & _). reflexivity. }
  rewrite E, map_map. reflexivity.
Qed.
Lemma several_of e : In e all -> d_numProcs e =? 1 = false /\ d_numProcs e >? 1 = true /\ d_sum e = true /\ d_bcast e = b.
Proof.
  intros He. destruct (proj2 Hs e He) as (H1 & H2 & H3 & _). repeat split; auto.
  - apply Z.eqb_neq. lia.
  - apply Z.gtb_lt. lia.
Qed.
(** A sum of one number. *)
Lemma add_one (g : data -> Z) (l : list data) : add_lists (map (fun e => [g e]) l) 1 = [fold_right Z.add 0 (map g l)].
Proof. cbn [add_lists]. rewrite map_map. reflexivity. Qed.
Lemma go_gsum1 (g : data -> Z) (c : data -> list Z -> prog) :
  go (fun e => gsum e SumReals [g e] (c e)) = go (fun e => c e [fold_right Z.add 0 (map g all)]).
Proof.
  rewrite (go_ext _ (fun e => Coll SumReals [g e] (c e))).
  2:{ intros e He. unfold gsum. destruct (several_of e He) as (-> & _ & -> & _). reflexivity. }
  rewrite (go_coll SumReals 1 (fun e => [g e]) c) by auto. cbv zeta. cbn [deliver length].
  change ([g d] :: map (fun e => [g e]) ds) with (map (fun e => [g e]) all). now rewrite add_one.
Qed.

Lemma go_coordinated r : r = 0 \/ r = -1 \/ r = PRIMME_PARALLEL_FAILURE ->
  go (fun e => coordinated e r) = AllReturn (map (fun _ => r) all).
Proof.
  intros Hr. destruct (Z.eqb_spec r PRIMME_PARALLEL_FAILURE) as [->|Hn].
  - rewrite (go_ext _ (fun _ => Ret PRIMME_PARALLEL_FAILURE)); [apply go_ret|]. reflexivity.
  - rewrite (go_ext _ (fun e => Coll SumReals [if r =? 0 then 0 else 1] (fun pret =>
         Ret (if hd 0 pret >? 0 then (if r =? 0 then PRIMME_PARALLEL_FAILURE else r) else r)))).
    2:{ intros e He. unfold coordinated. rewrite (proj2 (Z.eqb_neq _ _) Hn).
        destruct (several_of e He) as (_ & _ & -> & _). reflexivity. }
    rewrite (go_coll SumReals 1 (fun _ => [if r =? 0 then 0 else 1]) (fun _ pret =>
         Ret (if hd 0 pret >? 0 then (if r =? 0 then PRIMME_PARALLEL_FAILURE else r) else r))) by auto.
    cbv zeta. cbn [deliver length].
    change ([if r =? 0 then 0 else 1] :: map (fun _ => [if r =? 0 then 0 else 1]) ds)
      with (map (fun _ : data => [if r =? 0 then 0 else 1]) all).
    rewrite (add_one (fun _ => if r =? 0 then 0 else 1)). cbn [hd]. rewrite go_ret. f_equal. 
    apply map_ext_in. intros _ _.
    assert (E : r = 0 -> fold_right Z.add 0 (map (fun _ : data => if r =? 0 then 0 else 1) all) = 0).
    { intros ->. cbn [Z.eqb]. generalize all. induction l as [|a l IH]; [reflexivity|]. cbn [map fold_right] in *. lia. }
    destruct Hr as [-> | [-> | ->]].
    + rewrite E by auto. reflexivity.
    + match goal with |- context [?s >? 0] => destruct (s >? 0) end; reflexivity.
    + congruence.
Qed.

(** The root of the broadcasts. *)
Definition is_root (root : data) : Prop :=
  (b = true /\ root = d) \/
  (b = false /\ d_procID root = 0 /\ exists l1 l2, all = l1 ++ root :: l2 /\ forall e, In e (l1 ++ l2) -> d_procID e <> 0).
Definition deliv : Z -> Z := if b then bb else T.

Lemma go_bits root (g : data -> Z) (c : data -> list Z -> prog) : is_root root ->
  go (fun e => CoherenceModel.bcast e BcastBits SumBits [g e] (c e)) = go (fun e => c e [deliv (g root)]).
Proof.
  intros Hroot. unfold deliv.
  rewrite (go_ext _ (fun e => if b then Coll BcastBits [g e] (c e)
                              else Coll SumBits [if d_procID e =? 0 then g e else 0] (c e))).
  2:{ intros e He. unfold CoherenceModel.bcast, gsum. destruct (several_of e He) as (-> & _ & -> & ->).
      cbn [orb negb]. destruct b; [reflexivity|]. destruct (d_procID e =? 0); reflexivity. }
  destruct Hroot as [[-> ->]|(-> & H0 & l1 & l2 & E & Hne)].
  - rewrite (go_coll BcastBits 1 (fun e => [g e]) c) by auto. reflexivity.
  - rewrite (go_coll SumBits 1 (fun e => [if d_procID e =? 0 then g e else 0]) c) by auto. cbv zeta. cbn [deliver length bits_lists].
    change ([if d_procID d =? 0 then g d else 0] :: map (fun e => [if d_procID e =? 0 then g e else 0]) ds)
      with (map (fun e => [if d_procID e =? 0 then g e else 0]) all).
    rewrite map_map. cbn [hd]. rewrite E, map_app. cbn [map]. rewrite H0. cbn [Z.eqb].
    rewrite sb_one; [reflexivity| |].
    + apply Forall_forall. intros z Hz. apply in_map_iff in Hz. destruct Hz as (e & <- & He).
      rewrite (proj2 (Z.eqb_neq _ _)); auto. apply Hne. apply in_or_app; auto.
    + apply Forall_forall. intros z Hz. apply in_map_iff in Hz. destruct Hz as (e & <- & He).
      rewrite (proj2 (Z.eqb_neq _ _)); auto. apply Hne. apply in_or_app; auto.
Qed.

Lemma mismatches (h : data -> Z) z (l : list data) :
  let t := fold_right Z.add 0 (map (fun e => if h e =? z then 0 else 1) l) in
  0 <= t /\ (t = 0 <-> forall e, In e l -> h e = z).
Proof.
  induction l as [|a l [IH1 IH2]]; cbn [map fold_right].
  - split; [lia|]. split; [intros _ e []|reflexivity].
  - cbv zeta in *. set (t := fold_right Z.add 0 (map (fun e => if h e =? z then 0 else 1) l)) in *.
    destruct (Z.eqb_spec (h a) z) as [Ea|Ea]; split; try lia.
    + rewrite Z.add_0_l, IH2. split; intros H e He; [destruct He as [<-|He]; auto|apply H; now right].
    + split; [lia|]. intros H. destruct Ea. apply H. now left.
Qed.

Lemma go_checks root (Hroot : is_root root) : forall n (ms : data -> list (list Z * Z * Z)),
  (forall e, In e all -> length (ms e) = n) ->
  exists z, go (fun e => parallel_checks e (ms e) (coordinated e)) = AllReturn (map (fun _ => z) all) /\
    (z = 0 \/ z = PRIMME_PARALLEL_FAILURE) /\
    (z = 0 <-> forall i e, In e all -> (i < n)%nat ->
       hash_of (nth i (ms e) ([], 0, 0)) = deliv (hash_of (nth i (ms root) ([], 0, 0)))).
Proof.
  assert (Hin : In root all).
  { destruct Hroot as [[_ ->]|(_ & _ & l1 & l2 & -> & _)]; [left; auto|]. apply in_or_app. right. now left. }
  induction n as [|n IH]; intros ms Hn.
  - exists 0. split.
    + rewrite (go_ext _ (fun e => coordinated e 0)); [apply go_coordinated; auto|].
      intros e He. specialize (Hn e He). destruct (ms e); [reflexivity|discriminate].
    + split; auto. split; auto. intros _ i e _ H. lia.
  - set (g e := hash_of (nth 0 (ms e) ([], 0, 0))).
    assert (E : go (fun e => parallel_checks e (ms e) (coordinated e))
              = go (fun e => CoherenceModel.bcast e BcastBits SumBits [g e] (fun h0 =>
                  gsum e SumReals [if g e =? hd 0 h0 then 0 else 1] (fun total =>
                  if negb (hd 0 total =? 0) then coordinated e PRIMME_PARALLEL_FAILURE
                  else parallel_checks e (tl (ms e)) (coordinated e))))).
    { apply go_ext. intros e He. specialize (Hn e He). unfold g. destruct (ms e) as [|[[s w0] w1] t]; [discriminate|]. reflexivity. }
    rewrite E. rewrite (go_bits root g _ Hroot). cbn [hd].
    rewrite (go_gsum1 (fun e => if g e =? deliv (g root) then 0 else 1)
      (fun e total => if negb (hd 0 total =? 0) then coordinated e PRIMME_PARALLEL_FAILURE
                      else parallel_checks e (tl (ms e)) (coordinated e))). cbn [hd].
    destruct (mismatches g (deliv (g root)) all) as [Ht0 Ht].
    set (t := fold_right Z.add 0 (map (fun e => if g e =? deliv (g root) then 0 else 1) all)) in *.
    destruct (Z.eqb_spec t 0) as [Et|Et]; cbn [negb].
    + destruct (IH (fun e => tl (ms e))) as (z & E1 & Hz & H1).
      { intros e He. specialize (Hn e He). destruct (ms e); [discriminate|]. cbn in *. lia. }
      exists z. split; [exact E1|]. split; auto. rewrite H1.
      assert (Hnth : forall i e, nth (S i) (ms e) ([], 0, 0) = nth i (tl (ms e)) ([], 0, 0)).
      { intros i e. destruct (ms e); [destruct i; reflexivity|reflexivity]. }
      split.
      * intros H i e He Hi. destruct i as [|i].
        -- apply (proj1 Ht Et e He).
        -- rewrite !Hnth. apply H; auto. lia.
      * intros H i e He Hi. rewrite <- !Hnth. apply H; auto. lia.
    + exists PRIMME_PARALLEL_FAILURE. split; [apply go_coordinated; auto|]. split; auto. split; [discriminate|].
      intros H. destruct Et. apply Ht. intros e He. apply (H 0%nat e He). lia.
Qed.

Lemma count_ids (l : list data) : fold_right Z.add 0 (map (fun e => if d_procID e =? 0 then 1 else 0) l) = Z.of_nat (ids_zero l).
Proof.
  unfold ids_zero. induction l as [|a l IH]; [reflexivity|]. cbn [map fold_right filter]. rewrite IH.
  destruct (d_procID a =? 0); cbn [length]; lia.
Qed.
Lemma count_all (l : list data) : fold_right Z.add 0 (map (fun _ => 1) l) = Z.of_nat (length l).
Proof. induction l as [|a l IH]; [reflexivity|]. cbn [map fold_right length]. rewrite IH. lia. Qed.
Lemma one_root (l : list data) : ids_zero l = 1%nat -> exists root l1 l2, l = l1 ++ root :: l2 /\ d_procID root = 0 /\
  forall e, In e (l1 ++ l2) -> d_procID e <> 0.
Proof.
  unfold ids_zero. induction l as [|a l IH]; cbn [filter length]; [discriminate|].
  destruct (Z.eqb_spec (d_procID a) 0) as [Ea|Ea]; cbn [length].
  - intros H. exists a, [], l. split; [reflexivity|]. split; [exact Ea|].
    intros e He E. assert (In e (filter (fun e => d_procID e =? 0) l)) by (apply filter_In; split; [exact He|now apply Z.eqb_eq]).
    destruct (filter _ l); [destruct H0|cbn in H; lia].
  - intros H. destruct (IH H) as (root & l1 & l2 & -> & H0 & H1). exists root, (a :: l1), l2.
    split; [reflexivity|]. split; [exact H0|]. intros e [<-|He]; auto.
Qed.
Lemma sum_root (v : Z) (l : list data) :
  fold_right Z.add 0 (map (fun e => if d_procID e =? 0 then v else 0) l) = v * Z.of_nat (ids_zero l).
Proof.
  unfold ids_zero. induction l as [|a l IH]; cbn [map fold_right filter]; [cbn; lia|]. rewrite IH.
  destruct (d_procID a =? 0); cbn [length]; lia.
Qed.

Lemma start_eq : start bb sb d ds =
  if (1 <? ids_zero all)%nat then AllReturn (map (fun _ => -1) all)
  else if negb b && (ids_zero all =? 0)%nat then AllReturn (map (fun _ => -1) all)
  else go (fun e => parallel_checks e (d_members e) (coordinated e)).
Proof.
  unfold start, check_params_coherence.
  match goal with |- _ = ?r => change (go (fun e => check_params_coherence e (coordinated e)) = r) end. unfold check_params_coherence.
  rewrite (go_ext _ (fun e => Coll SumReals [1; if d_procID e =? 0 then 1 else 0] (fun aux =>
    if xorb (hd 0 aux >? 1) true then coordinated e (-1)
    else if hd 0 (tl aux) >? 1 then coordinated e (-1)
    else if b then Coll BcastReals [123] (fun val => if negb (hd 0 val =? 123) then coordinated e (-1)
                     else parallel_checks e (d_members e) (coordinated e))
    else Coll SumReals [if d_procID e =? 0 then 123 else 0] (fun val => if negb (hd 0 val =? 123) then coordinated e (-1)
                     else parallel_checks e (d_members e) (coordinated e))))).
  2:{ intros e He. unfold gsum, CoherenceModel.bcast, gsum. destruct (several_of e He) as (-> & -> & -> & ->). cbn [orb negb].
      destruct (d_procID e =? 0); reflexivity. }
  rewrite (go_coll SumReals 2 (fun e => [1; if d_procID e =? 0 then 1 else 0]) (fun e aux =>
    if xorb (hd 0 aux >? 1) true then coordinated e (-1)
    else if hd 0 (tl aux) >? 1 then coordinated e (-1)
    else if b then Coll BcastReals [123] (fun val => if negb (hd 0 val =? 123) then coordinated e (-1)
                     else parallel_checks e (d_members e) (coordinated e))
    else Coll SumReals [if d_procID e =? 0 then 123 else 0] (fun val => if negb (hd 0 val =? 123) then coordinated e (-1)
                     else parallel_checks e (d_members e) (coordinated e)))) by auto.
  cbv zeta.
  assert (E : deliver bb sb SumReals [1; if d_procID d =? 0 then 1 else 0] (map (fun e => [1; if d_procID e =? 0 then 1 else 0]) ds)
            = [Z.of_nat (length all); Z.of_nat (ids_zero all)]).
  { cbn [deliver length].
    change ([1; if d_procID d =? 0 then 1 else 0] :: map (fun e => [1; if d_procID e =? 0 then 1 else 0]) ds)
      with (map (fun e => [1; if d_procID e =? 0 then 1 else 0]) all).
    cbn [add_lists]. rewrite !map_map. cbn [hd tl]. rewrite count_all, count_ids. reflexivity. }
  rewrite E. cbn [hd tl].
  assert (E1 : Z.of_nat (length all) >? 1 = true). { apply Z.gtb_lt. destruct Hs as [H _]. lia. }
  rewrite E1. cbn [xorb].
  destruct (Nat.ltb_spec 1 (ids_zero all)) as [Hi|Hi].
  { assert (E2 : Z.of_nat (ids_zero all) >? 1 = true) by (apply Z.gtb_lt; lia). rewrite E2.
    apply go_coordinated. auto. }
  assert (E2 : Z.of_nat (ids_zero all) >? 1 = false) by (destruct (Z.gtb_spec (Z.of_nat (ids_zero all)) 1); [lia|reflexivity]).
  rewrite E2. assert (Hb : b = true \/ b = false) by (destruct b; auto). destruct Hb as [Hb|Hb]; rewrite Hb; cbn [negb andb].
  - etransitivity; [apply (go_coll BcastReals 1 (fun _ => [123]) (fun e val => if negb (hd 0 val =? 123) then coordinated e (-1)
                     else parallel_checks e (d_members e) (coordinated e))); auto|]. reflexivity.
  - etransitivity; [apply (go_coll SumReals 1 (fun e => [if d_procID e =? 0 then 123 else 0])
      (fun e val => if negb (hd 0 val =? 123) then coordinated e (-1)
                     else parallel_checks e (d_members e) (coordinated e))); auto|]. cbv zeta. cbn [deliver length].
    change ([if d_procID d =? 0 then 123 else 0] :: map (fun e => [if d_procID e =? 0 then 123 else 0]) ds)
      with (map (fun e => [if d_procID e =? 0 then 123 else 0]) all).
    rewrite add_one, sum_root. cbn [hd].
    destruct (Nat.eqb_spec (ids_zero all) 0) as [E0|E0].
    + rewrite E0. cbn. apply go_coordinated. auto.
    + assert (ids_zero all = 1%nat) as -> by lia. reflexivity.
Qed.
End Proofs.

(** All processes return the same code; it is zero exactly when no two processes are number
    0, one of them is if there is no broadcast function, and all agree on the members. *)
Theorem C60_all_return : forall bb sb T b d ds,
  (forall l1 x l2, Forall (eq 0) l1 -> Forall (eq 0) l2 -> sb (l1 ++ x :: l2) = T x) ->
  several b (d :: ds) ->
  exists z, start bb sb d ds = AllReturn (map (fun _ => z) (d :: ds)) /\
    (z = 0 <-> (ids_zero (d :: ds) <= 1)%nat /\
       exists root, (if b then root = d else In root (d :: ds) /\ d_procID root = 0) /\
         agree (if b then bb else T) root (d :: ds)).
Proof.
  intros bb sb T b d ds Hsb Hs. rewrite (start_eq bb sb b d ds Hs).
  destruct (Nat.ltb_spec 1 (ids_zero (d :: ds))) as [Hi|Hi].
  { exists (-1). split; [reflexivity|]. split; [discriminate|lia]. }
  assert (Hone : forall root, In root (d :: ds) -> d_procID root = 0 -> b = false -> is_root b d ds root).
  { intros root Hr H0 Hb. right. split; auto. split; auto.
    apply in_split in Hr. destruct Hr as (l1 & l2 & E). exists l1, l2. split; auto. intros e He E0.
    rewrite E in Hi. unfold ids_zero in Hi. rewrite filter_app in Hi. cbn [filter] in Hi. rewrite H0 in Hi. cbn [Z.eqb] in Hi.
    rewrite app_length in Hi. cbn [length] in Hi.
    assert (In e (filter (fun e => d_procID e =? 0) l1) \/ In e (filter (fun e => d_procID e =? 0) l2)).
    { apply in_app_or in He. destruct He; [left|right]; apply filter_In; split; auto; now apply Z.eqb_eq. }
    destruct H as [H|H]; [destruct (filter _ l1)|destruct (filter _ l2)]; try destruct H; cbn [length] in Hi; lia. }
  destruct (negb b && (ids_zero (d :: ds) =? 0)%nat) eqn:E.
  { exists (-1). split; [reflexivity|]. split; [discriminate|]. intros (_ & root & Hr & _).
    apply andb_true_iff in E. destruct E as [Eb E0]. destruct b; [discriminate|]. destruct Hr as [Hr1 Hr2].
    apply Nat.eqb_eq in E0. unfold ids_zero in E0.
    assert (In root (filter (fun e => d_procID e =? 0) (d :: ds))) by (apply filter_In; split; [auto|now apply Z.eqb_eq]).
    destruct (filter _ (d :: ds)); [destruct H|discriminate]. }
  assert (Hroot : exists root, is_root b d ds root /\ (if b then root = d else In root (d :: ds) /\ d_procID root = 0)).
  { destruct b eqn:Eb.
    - exists d. split; [left|]; auto.
    - cbn [negb andb] in E. apply Nat.eqb_neq in E. destruct (one_root (d :: ds)) as (root & l1 & l2 & E1 & E2 & E3); [lia|].
      assert (Hin : In root (d :: ds)). { rewrite E1. apply in_or_app. right. now left. }
      exists root. split; [apply Hone; auto|]. split; auto. }
  destruct Hroot as (root & Hr & Hr').
  assert (Hin : In root (d :: ds)). { destruct b; [subst; now left|tauto]. }
  destruct (go_checks bb sb T Hsb b d ds Hs root Hr (length (d_members root)) (fun e => d_members e)) as (z & E1 & Hz & E2).
  { intros e He. apply (proj2 Hs root Hin). exact He. }
  exists z. split; [exact E1|]. unfold deliv in E2. rewrite E2. unfold agree. split.
  - intros H. split; [lia|]. exists root. split; [exact Hr'|]. intros i e He Hi'. apply H; auto.
  - intros (_ & root' & H' & H) i e He Hi'. destruct b.
    + subst root'. rewrite Hr' in *. apply H; auto.
    + destruct Hr' as [_ H0]. destruct H' as [H1 H2].
      assert (root' = root).
      { destruct (Hone root' H1 H2 eq_refl) as [[? _]|(_ & _ & l1 & l2 & El & Hne)]; [discriminate|].
        rewrite El in Hin. apply in_app_or in Hin. destruct Hin as [Hin|[Hin|Hin]]; auto.
        - destruct (Hne root); auto. apply in_or_app; auto.
        - destruct (Hne root); auto. apply in_or_app; auto. }
      subst root'. apply H; auto.
Qed.

(** If the call goes on anywhere it goes on everywhere, and then every two processes have the
    same checksum for each member. *)
Theorem C60_agree : forall bb sb T b d ds codes,
  (forall l1 x l2, Forall (eq 0) l1 -> Forall (eq 0) l2 -> sb (l1 ++ x :: l2) = T x) ->
  several b (d :: ds) -> start bb sb d ds = AllReturn codes ->
  Forall (eq 0) codes /\ (forall i e e', In e (d :: ds) -> In e' (d :: ds) -> (i < length (d_members d))%nat ->
     hash_of (nth i (d_members e) ([], 0, 0)) = hash_of (nth i (d_members e') ([], 0, 0))) \/
  Forall (fun c => c <> 0) codes.
Proof.
  intros bb sb T b d ds codes Hsb Hs E. destruct (C60_all_return bb sb T b d ds Hsb Hs) as (z & E1 & E2).
  rewrite E1 in E. injection E as <-. destruct (Z.eq_dec z 0) as [Hz|Hz].
  - left. split.
    + subst z. change (0 :: map (fun _ => 0) ds) with (map (fun _ : data => 0) (d :: ds)).
      apply Forall_forall. intros x Hx. apply in_map_iff in Hx. destruct Hx as (? & <- & _). reflexivity.
    + apply E2 in Hz. destruct Hz as (_ & root & Hr & Ha). intros i e e' He He' Hi.
      assert (Hin : In root (d :: ds)). { destruct b; [subst; now left|tauto]. }
      assert (El : length (d_members root) = length (d_members d)). { apply (proj2 Hs d); [now left|exact Hin]. }
      rewrite (Ha i e), (Ha i e'); auto; lia.
  - right. change (z :: map (fun _ => z) ds) with (map (fun _ : data => z) (d :: ds)).
    apply Forall_forall. intros x Hx. apply in_map_iff in Hx. destruct Hx as (? & <- & _). exact Hz.
Qed.

(** Members that differ in one of the two words of the value are told apart. *)
Theorem C60_difference_rejected : forall bb sb T b d ds codes e e' i s w0 w1 v0 v1,
  (forall l1 x l2, Forall (eq 0) l1 -> Forall (eq 0) l2 -> sb (l1 ++ x :: l2) = T x) ->
  several b (d :: ds) -> start bb sb d ds = AllReturn codes ->
  In e (d :: ds) -> In e' (d :: ds) ->
  nth_error (d_members e) i = Some (s, w0, w1) -> nth_error (d_members e') i = Some (s, v0, v1) ->
  0 <= w0 < word -> 0 <= w1 < word -> 0 <= v0 < word -> 0 <= v1 < word ->
  w0 = v0 /\ w1 <> v1 \/ w0 <> v0 /\ w1 = v1 ->
  Forall (fun c => c <> 0) codes.
Proof.
  intros bb sb T b d ds codes e e' i s w0 w1 v0 v1 Hsb Hs E He He' Hn Hn' A B C D Hd.
  destruct (C60_agree bb sb T b d ds codes Hsb Hs E) as [[_ H]|H]; [|exact H].
  exfalso. specialize (H i e e' He He').
  assert (Hi : (i < length (d_members d))%nat).
  { rewrite (proj2 (proj2 (proj2 (proj2 Hs e He))) d (or_introl eq_refl)). apply nth_error_Some. congruence. }
  specialize (H Hi). rewrite (nth_error_nth _ _ _ Hn), (nth_error_nth _ _ _ Hn') in H. cbn [hash_of] in H.
  destruct (C28_checksum_separates s w0 w1 v0 v1 A B C D) as [_ S]. specialize (S H). tauto.
Qed.

(** The same settings on all processes are accepted, if the broadcast keeps the checksums. *)
Theorem C60_accepted : forall bb sb T b d ds,
  (forall l1 x l2, Forall (eq 0) l1 -> Forall (eq 0) l2 -> sb (l1 ++ x :: l2) = T x) ->
  several b (d :: ds) -> ids_zero (d :: ds) = 1%nat ->
  (forall e, In e (d :: ds) -> d_members e = d_members d) ->
  (forall m, In m (d_members d) -> (if b then bb else T) (hash_of m) = hash_of m) ->
  start bb sb d ds = AllReturn (map (fun _ => 0) (d :: ds)).
Proof.
  intros bb sb T b d ds Hsb Hs Hid Hm Ht. destruct (C60_all_return bb sb T b d ds Hsb Hs) as (z & E1 & E2).
  assert (z = 0) as ->; [|exact E1]. apply E2. split; [lia|].
  destruct (one_root _ Hid) as (root & l1 & l2 & Er & H0 & _).
  assert (Hin : In root (d :: ds)). { rewrite Er. apply in_or_app. right. now left. }
  exists (if b then d else root). split; [destruct b; auto|].
  assert (Hr : d_members (if b then d else root) = d_members d) by (destruct b; auto).
  intros i e He Hi. rewrite Hr in *. rewrite (Hm e He). symmetry. apply Ht. apply nth_In. exact Hi.
Qed.

(** Exceptions. *)
Definition settings (np id : Z) (bc : bool) (w : Z) (sh : list Z) : data :=
  {| d_numProcs := np; d_procID := id; d_sum := true; d_bcast := bc; d_members := [([110], 0, w); ([109], 5, w)]; d_shifts := sh |}.
Definition plain_sum (l : list Z) : Z := fold_right Z.add 0 l.
Lemma plain_sum_one : forall l1 x l2, Forall (eq 0) l1 -> Forall (eq 0) l2 -> plain_sum (l1 ++ x :: l2) = x.
Proof.
  intros l1 x l2 H1 H2. assert (Z0 : forall l, Forall (eq 0) l -> plain_sum l = 0).
  { induction 1; [reflexivity|]. cbn. unfold plain_sum in IHForall. lia. }
  induction H1 as [|a l Ha _ IH]; cbn.
  - unfold plain_sum in Z0. rewrite (Z0 l2 H2). lia.
  - unfold plain_sum in IH. rewrite IH. lia.
Qed.
(** A process that believes to be alone leaves while the others wait for it: it makes its
    last sum while they make their first. *)
Theorem C60_alone_refuted : forall bb sb w np, 1 < np ->
  start bb sb (settings 1 0 true w []) [settings np 1 true w []] = Mixed /\
  start bb sb (settings np 0 true w []) [settings 1 1 true w []] = Mixed.
Proof.
  intros bb sb w np H. assert (E : np =? 1 = false) by (apply Z.eqb_neq; lia).
  unfold start, check_params_coherence, gsum, CoherenceModel.bcast, settings. cbn [map d_numProcs d_sum Z.eqb orb negb].
  rewrite E. split; cbn -[hash_call]; rewrite ?E; cbn -[hash_call]; rewrite ?Z.eqb_refl; cbn -[hash_call]; rewrite ?E; cbn -[hash_call]; rewrite ?Z.eqb_refl; cbn -[hash_call]; reflexivity.
Qed.
(** Wrong numbers of processes, the lack of a process 0 and different target shifts pass. *)
Theorem C60_unchecked_refuted : forall w np np' id sh sh', 1 < np -> 1 < np' -> 0 < id ->
  start (fun h => h) plain_sum (settings np id true w sh) [settings np' 1 true w sh'] = AllReturn [0; 0].
Proof.
  intros w np np' id sh sh' H H' Hid.
  destruct (C60_all_return (fun h => h) plain_sum (fun h => h) true (settings np id true w sh) [settings np' 1 true w sh'])
    as (z & E1 & E2).
  - apply plain_sum_one.
  - split; [cbn; lia|]. intros e [<-|[<-|[]]]; cbn; repeat split; auto; intros e' [<-|[<-|[]]]; reflexivity.
  - rewrite E1. assert (z = 0) as ->; [|reflexivity]. apply E2. split.
    + unfold ids_zero, settings. cbn [filter d_procID]. rewrite (proj2 (Z.eqb_neq id 0)) by lia. cbn. lia.
    + exists (settings np id true w sh). split; [reflexivity|]. intros i e [<-|[<-|[]]] _; reflexivity.
Qed.

(** Cases: three processes, without broadcast function; with one that differs in a member. *)
Example ex_coherent : several false [settings 3 2 false 9 []; settings 3 0 false 9 []; settings 3 1 false 9 []] /\
  start (fun h => h) plain_sum (settings 3 2 false 9 []) [settings 3 0 false 9 []; settings 3 1 false 9 []] = AllReturn [0; 0; 0] /\
  start (fun h => h) plain_sum (settings 3 2 false 9 []) [settings 3 0 false 8 []; settings 3 1 false 9 []] = AllReturn [-43; -43; -43] /\
  start (fun h => h) plain_sum (settings 3 2 false 9 []) [settings 3 4 false 9 []; settings 3 1 false 9 []] = AllReturn [-1; -1; -1].
Proof.
  split; [|repeat split].
  split; [cbn; lia|]. intros e [<-|[<-|[<-|[]]]]; cbn; repeat split; try lia; intros e' [<-|[<-|[<-|[]]]]; reflexivity.
Qed.
