(** C71: options given by name in MATLAB reach the member they name. *)
From Coq Require Import Bool String List ZArith Lia.
From Verif Require Import MatModel MembersModel SvdsMembersModel MatOptions.
Import ListNotations.
Local Open Scope nat_scope.
Local Open Scope string_scope.

(** * Specification *)

(** The value x is found in the options at opts.l1.l2...lk, the path l1, ..., lk. *)
Inductive at_path {V} : list (string * @value V) -> list string -> V -> Prop :=
| at_leaf fs l x : In (l, Leaf x) fs -> at_path fs [l] x
| at_struct fs l gs p x : In (l, Struct gs) fs -> at_path gs p x -> at_path fs (l :: p) x.

(** The short names of options and the members they stand for. *)
Definition short_stage : list (string * string) :=
  [("projection", "projection_projection"); ("scheme", "restarting_scheme");
   ("maxPrevRetain", "restarting_maxPrevRetain"); ("precondition", "correction_precondition");
   ("robustShifts", "correction_robustShifts"); ("maxInnerIterations", "correction_maxInnerIterations");
   ("LeftQ", "correction_projectors_LeftQ"); ("LeftX", "correction_projectors_LeftX");
   ("RightQ", "correction_projectors_RightQ"); ("RightX", "correction_projectors_RightX");
   ("SkewQ", "correction_projectors_SkewQ"); ("SkewX", "correction_projectors_SkewX");
   ("convTest", "correction_convTest"); ("relTolBase", "correction_relTolBase")].
Definition short_eigs : list (string * string) :=
  ("tol", "eps") :: ("maxit", "maxOuterIterations") :: ("p", "maxBasisSize") :: short_stage.
Definition short_svds : list (string * string) := [("tol", "eps"); ("maxit", "maxMatvecs"); ("p", "maxBasisSize")].

(** The full name of an option. *)
Definition full (short : list (string * string)) (l : string) : string :=
  match find (fun c => String.eqb (fst c) l) short with Some c => snd c | None => l end.
(** An option given by its full name when it is given by its short name too: the short one counts. *)
Definition overridden {X} (short : list (string * string)) (fs : list (string * X)) (l : string) : Prop :=
  exists o, In (o, l) short /\ In o (map fst fs).
(** The member that the option at a path names. *)
Definition member (short : list (string * string)) (l : string) (p : list string) : string :=
  String.concat "_" (full short l :: p).
Definition known (names : list (string * Z)) (n : string) : Prop := In n (map fst names).

(** Options documented for primme_eigs, primme_eigs.m 39-79, and for primme_svds, primme_svds.m 24-61,
    other than those that the functions use themselves. *)
Definition documented_eigs : list string :=
  ["aNorm"; "tol"; "maxBlockSize"; "targetShifts"; "locking"; "p"; "minRestartSize"; "maxMatvecs"; "maxit";
   "maxPrevRetain"; "robustShifts"; "maxInnerIterations"; "LeftQ"; "LeftX"; "RightQ"; "RightX"; "SkewQ"; "SkewX";
   "relTolBase"; "convTest"; "convTestFun"; "iseed"; "profiler"].
Definition documented_svds : list string :=
  ["aNorm"; "tol"; "maxit"; "p"; "locking"; "maxBlockSize"; "iseed"; "convTestFun"; "profiler"].

(** * Proofs *)
Section Proofs.
Context {V : Type}.
Notation value := (@value V).
Notation fields := (@fields V).

Lemma lookup_in {X} (k : string) (v : X) fs : NoDup (map fst fs) -> lookup k fs = Some v <-> In (k, v) fs.
Proof.
  induction fs as [|[l w] t IH]; cbn; intros N; [split; [discriminate|tauto]|].
  inversion N as [|? ? N1 N2]; subst. destruct (String.eqb_spec l k) as [->|D].
  - split; [intros [= ->]; auto|]. intros [[= ->]|H]; [reflexivity|].
    exfalso; apply N1. apply (in_map fst) in H. exact H.
  - rewrite (IH N2). split; [auto|]. intros [[= ? ?]|H]; [congruence|exact H].
Qed.
Lemma lookup_names {X} (k : string) (fs : list (string * X)) : lookup k fs = None <-> ~ In k (map fst fs).
Proof.
  induction fs as [|[l w] t IH]; cbn; [tauto|].
  destruct (String.eqb_spec l k) as [->|D]; [split; [discriminate|tauto]|]. rewrite IH. tauto.
Qed.
Lemma lookup_known names n : (match lookup n names with Some _ => true | None => false end) = true <-> known names n.
Proof.
  unfold known. pose proof (lookup_names n names) as H. destruct (lookup n names) eqn:L.
  - split; [intros _|reflexivity]. destruct (in_dec string_dec n (map fst names)) as [I|I]; [exact I|].
    apply H in I. discriminate.
  - split; [discriminate|]. intros I. exfalso. apply H; auto.
Qed.

Lemma field_set k l v (fs : fields) : field k (setfield l v fs) = if String.eqb k l then Some v else field k fs.
Proof.
  unfold field. induction fs as [|[a w] t IH]; cbn.
  - rewrite String.eqb_sym. destruct (String.eqb k l); reflexivity.
  - destruct (String.eqb_spec a l) as [->|D]; cbn.
    + rewrite (String.eqb_sym l k). destruct (String.eqb k l); reflexivity.
    + destruct (String.eqb_spec a k) as [->|D']; [|exact IH].
      destruct (String.eqb_spec k l); [contradiction|reflexivity].
Qed.
Lemma field_rm k l (fs : fields) : field k (rmfield l fs) = if String.eqb k l then None else field k fs.
Proof.
  unfold field, rmfield. induction fs as [|[a w] t IH]; cbn; [destruct (String.eqb k l); reflexivity|].
  destruct (String.eqb_spec a l) as [->|D]; cbn.
  - rewrite IH, (String.eqb_sym l k). destruct (String.eqb k l); reflexivity.
  - destruct (String.eqb_spec a k) as [->|D']; [|exact IH].
    destruct (String.eqb_spec k l); [contradiction|reflexivity].
Qed.
Lemma names_set l v (fs : fields) k : In k (map fst (setfield l v fs)) -> k = l \/ In k (map fst fs).
Proof.
  induction fs as [|[a w] t IH]; cbn; [intuition|]. destruct (String.eqb_spec a l) as [->|D]; cbn; [intuition|].
  intros [H|H]; [auto|]. destruct (IH H); auto.
Qed.
Lemma nodup_set l v (fs : fields) : NoDup (map fst fs) -> NoDup (map fst (setfield l v fs)).
Proof.
  induction fs as [|[a w] t IH]; cbn; intros N; [repeat constructor; auto|].
  inversion N; subst. destruct (String.eqb_spec a l) as [->|D]; cbn; constructor; auto.
  intros H. apply names_set in H. destruct H; [congruence|contradiction].
Qed.
Lemma nodup_rm l (fs : fields) : NoDup (map fst fs) -> NoDup (map fst (rmfield l fs)).
Proof.
  unfold rmfield. induction fs as [|[a w] t IH]; cbn; intros N; [constructor|].
  inversion N as [|? ? N1 N2]; subst. destruct (String.eqb a l); cbn; auto. constructor; auto.
  intros H. apply N1. apply in_map_iff in H. destruct H as (y & <- & H). apply filter_In in H.
  apply in_map. tauto.
Qed.
Lemma nodup_changed cs (fs : fields) : NoDup (map fst fs) -> NoDup (map fst (changed cs fs)).
Proof.
  revert fs. induction cs as [|c cs IH]; intros fs N; [exact N|].
  cbn. apply IH. unfold change. destruct (field (fst c) fs); auto using nodup_rm, nodup_set.
Qed.

Lemma field_change k o n (fs : fields) :
  field k (change fs (o, n)) =
  match field o fs with
  | None => field k fs
  | Some v => if String.eqb k o then None else if String.eqb k n then Some v else field k fs
  end.
Proof.
  unfold change; cbn. destruct (field o fs) as [v|]; [|reflexivity].
  rewrite field_rm, field_set. reflexivity.
Qed.

Lemma field_changed cs (fs : fields) :
  NoDup (map fst cs ++ map snd cs) ->
  (forall o n, In (o, n) cs -> field o (changed cs fs) = None /\
     field n (changed cs fs) = match field o fs with Some v => Some v | None => field n fs end) /\
  (forall k, ~ In k (map fst cs) -> ~ In k (map snd cs) -> field k (changed cs fs) = field k fs).
Proof.
  revert fs. induction cs as [|[o n] cs IH]; intros fs N; [split; [intros ? ? []|reflexivity]|].
  cbn in N. inversion N as [|? ? N1 N2]; subst. apply NoDup_remove in N2 as [N2 N3].
  assert (Don : o <> n) by (intros ->; apply N1, in_or_app; right; left; reflexivity).
  assert (No1 : ~ In o (map fst cs)) by (intros H; apply N1, in_or_app; auto).
  assert (No2 : ~ In o (map snd cs)) by (intros H; apply N1, in_or_app; right; right; exact H).
  assert (Nn1 : ~ In n (map fst cs)) by (intros H; apply N3, in_or_app; auto).
  assert (Nn2 : ~ In n (map snd cs)) by (intros H; apply N3, in_or_app; auto).
  cbn [changed fold_left]. destruct (IH (change fs (o, n)) N2) as [A B]. unfold changed in *. split.
  - intros o' n' [[= <- <-]|H].
    + rewrite !B, !field_change by assumption. rewrite String.eqb_refl.
      destruct (field o fs) as [v|] eqn:F; [|auto].
      destruct (String.eqb_spec n o); [congruence|]. rewrite String.eqb_refl. auto.
    + destruct (A o' n' H) as [A1 A2]. split; [exact A1|]. rewrite A2, !field_change.
      pose proof (in_map fst _ _ H) as H1. pose proof (in_map snd _ _ H) as H2. cbn in H1, H2.
      destruct (field o fs) as [v|] eqn:F; [|reflexivity].
      destruct (String.eqb_spec o' o); [subst; contradiction|].
      destruct (String.eqb_spec o' n); [subst; contradiction|].
      destruct (String.eqb_spec n' o); [subst; contradiction|].
      destruct (String.eqb_spec n' n); [subst; contradiction|]. reflexivity.
  - cbn. intros k K1 K2. rewrite B by tauto. rewrite field_change.
    destruct (field o fs) as [v|]; [|reflexivity].
    destruct (String.eqb_spec k o); [subst; tauto|]. destruct (String.eqb_spec k n); [subst; tauto|]. reflexivity.
Qed.

Lemma full_in cs o n : NoDup (map fst cs) -> In (o, n) cs -> full cs o = n.
Proof.
  unfold full. induction cs as [|[a b] cs IH]; cbn; [tauto|]. intros N. inversion N as [|? ? N1 N2]; subst.
  intros [[= -> ->]|H]; [rewrite String.eqb_refl; reflexivity|].
  destruct (String.eqb_spec a o) as [->|D]; [|auto]. exfalso. apply N1. apply (in_map fst) in H. exact H.
Qed.
Lemma full_out cs l : ~ In l (map fst cs) -> full cs l = l.
Proof.
  unfold full. induction cs as [|[a b] cs IH]; cbn; [reflexivity|]. intros N.
  destruct (String.eqb_spec a l) as [->|D]; [tauto|]. apply IH. tauto.
Qed.
Lemma snd_inj (cs : list (string * string)) o o' n : NoDup (map snd cs) -> In (o, n) cs -> In (o', n) cs -> o = o'.
Proof.
  induction cs as [|[a b] cs IH]; cbn; [tauto|]. intros N. inversion N as [|? ? N1 N2]; subst.
  intros [[= -> ->]|H] [[= E]|H']; subst; auto.
  - exfalso. apply N1. apply (in_map snd) in H'. exact H'.
  - exfalso. apply N1. apply (in_map snd) in H. exact H.
Qed.
Lemma nodup_app {X} (a b : list X) : NoDup (a ++ b) -> NoDup a /\ NoDup b /\ (forall x, In x a -> ~ In x b).
Proof.
  induction a as [|x a IH]; cbn; intros N; [split; [constructor|split; [exact N|intros ? []]]|].
  inversion N as [|? ? N1 N2]; subst. destruct (IH N2) as (A & B & C). split; [|split; [exact B|]].
  - constructor; auto. intros H. apply N1, in_or_app; auto.
  - intros y [<-|H]; [intros H; apply N1, in_or_app; auto|auto].
Qed.

Lemma changed_in cs (fs : fields) k v :
  NoDup (map fst cs ++ map snd cs) -> NoDup (map fst fs) ->
  In (k, v) (changed cs fs) <-> exists l, In (l, v) fs /\ k = full cs l /\ ~ overridden cs fs l.
Proof.
  intros N NF. pose proof (nodup_changed cs fs NF) as NC. rewrite <- (lookup_in k v _ NC).
  destruct (field_changed cs fs N) as [A B]. destruct (nodup_app _ _ N) as (N1 & N2 & N3).
  assert (Ov : forall l, ~ In l (map snd cs) -> ~ overridden cs fs l)
    by (intros l H (o & H1 & _); apply H; apply (in_map snd) in H1; exact H1).
  change (lookup k (changed cs fs)) with (field k (changed cs fs)). split.
  - intros H. destruct (in_dec string_dec k (map fst cs)) as [I|I].
    { apply in_map_iff in I. destruct I as ([o n] & <- & I). destruct (A o n I) as [A1 _].
      cbn in H. congruence. }
    destruct (in_dec string_dec k (map snd cs)) as [J|J].
    + apply in_map_iff in J. destruct J as ([o n] & <- & J). cbn in *. destruct (A o n J) as [_ A2].
      rewrite A2 in H. destruct (field o fs) as [w|] eqn:F.
      * injection H as ->. exists o. split; [apply lookup_in; assumption|]. split; [symmetry; apply full_in; assumption|].
        apply Ov. apply N3. apply (in_map fst) in J. exact J.
      * exists n. split; [apply lookup_in; assumption|]. split; [symmetry; apply full_out; assumption|].
        intros (o' & H1 & H2). assert (o' = o) by (eapply snd_inj; eauto). subst.
        apply lookup_names in F. contradiction.
    + rewrite B in H by assumption. exists k. split; [apply lookup_in; assumption|].
      split; [symmetry; apply full_out; assumption|auto].
  - intros (l & H & -> & O). apply (lookup_in l v _ NF) in H.
    change (field l fs = Some v) in H.
    destruct (in_dec string_dec l (map fst cs)) as [I|I].
    { apply in_map_iff in I. destruct I as ([o n] & <- & I). cbn in *. rewrite (full_in cs o n N1 I).
      destruct (A o n I) as [_ A2]. rewrite A2, H. reflexivity. }
    rewrite full_out by assumption. destruct (in_dec string_dec l (map snd cs)) as [J|J].
    + apply in_map_iff in J. destruct J as ([o n] & <- & J). cbn in *. destruct (A o n J) as [_ A2].
      rewrite A2. destruct (field o fs) as [w|] eqn:F; [|exact H]. exfalso. apply O. exists o. split; [exact J|].
      destruct (in_dec string_dec o (map fst fs)) as [K|K]; [exact K|]. apply lookup_names in K.
      unfold field in F. congruence.
    + rewrite B by assumption. exact H.
Qed.

Lemma ok_inj {X} (a b : X) : Ok a = Ok b -> a = b.
Proof. intros H. injection H as ->. reflexivity. Qed.
Local Opaque changed setfield rmfield.

(** What a field holds at the rest of a path. *)
Definition holds (v : value) (p : list string) (x : V) : Prop :=
  match v with Leaf y => p = [] /\ y = x | Struct gs => at_path gs p x end.
Lemma at_path_cons (fs : fields) l p x : at_path fs (l :: p) x <-> exists v, In (l, v) fs /\ holds v p x.
Proof.
  split.
  - intros H. inversion H; subst; eexists; (split; [eassumption|]); cbn; auto.
  - intros ([y|gs] & H & K); cbn in K; [destruct K as [-> ->]; constructor; exact H|econstructor; eauto].
Qed.
Lemma at_path_nil (fs : fields) x : ~ at_path fs [] x.
Proof. intros H. inversion H. Qed.

Lemma changed_path cs (fs : fields) k p x :
  NoDup (map fst cs ++ map snd cs) -> NoDup (map fst fs) ->
  at_path (changed cs fs) (k :: p) x <-> exists l, at_path fs (l :: p) x /\ k = full cs l /\ ~ overridden cs fs l.
Proof.
  intros N NF. rewrite at_path_cons. split.
  - intros (v & H & K). apply changed_in in H; [|assumption..]. destruct H as (l & H & E & O).
    exists l. rewrite at_path_cons. eauto.
  - intros (l & H & E & O). apply at_path_cons in H. destruct H as (v & H & K). exists v. split; [|exact K].
    apply changed_in; eauto.
Qed.

Lemma set_field_struct prefix label (fs : fields) :
  set_field prefix label (Struct fs) = set_members (prefix ++ label ++ "_") fs.
Proof. unfold set_members. induction fs as [|[l w] t IH]; [reflexivity|]. cbn in *. rewrite IH. reflexivity. Qed.

Fixpoint size (v : value) : nat :=
  match v with
  | Leaf _ => 1
  | Struct fs => S ((fix go (fs : list (string * value)) := match fs with [] => 0 | (_, w) :: t => size w + go t end) fs)
  end.
Lemma size_in fs l v : In (l, v) fs -> size v < size (Struct fs).
Proof.
  induction fs as [|[k w] t IH]; [intros []|]. intros [[= -> ->]|H]; [cbn; lia|]. specialize (IH H). cbn in *. lia.
Qed.
Lemma append_assoc a b c : (a ++ b) ++ c = a ++ (b ++ c).
Proof. induction a; cbn; congruence. Qed.
Lemma concat_cons l p : p <> [] -> String.concat "_" (l :: p) = l ++ "_" ++ String.concat "_" p.
Proof. destruct p; [congruence|reflexivity]. Qed.

Lemma in_set_field n x : forall m v prefix label, size v <= m ->
  In (n, x) (set_field prefix label v) <->
  exists p, holds v p x /\ n = prefix ++ String.concat "_" (label :: p).
Proof.
  induction m as [|m IH]; intros v prefix label L; [destruct v; cbn in L; lia|]. destruct v as [y|gs].
  - cbn. split.
    + intros [[= <- <-]|[]]. exists []. auto.
    + intros (p & [-> ->] & ->). left. reflexivity.
  - rewrite set_field_struct. unfold set_members. rewrite in_flat_map. cbn [holds]. split.
    + intros ([l w] & H & K). cbn in K. apply IH in K; [|pose proof (size_in _ _ _ H); lia].
      destruct K as (p & K & ->). exists (l :: p). split; [apply at_path_cons; eauto|].
      rewrite (concat_cons label) by discriminate. rewrite !append_assoc. reflexivity.
    + intros ([|l p] & K & ->); [apply at_path_nil in K; contradiction|].
      apply at_path_cons in K. destruct K as (w & H & K). exists (l, w). split; [exact H|]. cbn.
      apply IH; [pose proof (size_in _ _ _ H); lia|]. exists p. split; [exact K|].
      rewrite (concat_cons label) by discriminate. rewrite !append_assoc. reflexivity.
Qed.
Lemma in_set_members n x (fs : fields) :
  In (n, x) (set_members "" fs) <-> exists l p, at_path fs (l :: p) x /\ n = String.concat "_" (l :: p).
Proof.
  unfold set_members. rewrite in_flat_map. split.
  - intros ([l w] & H & K). apply (in_set_field n x (size w)) in K; [|constructor]. destruct K as (p & K & ->).
    exists l, p. split; [apply at_path_cons; eauto|reflexivity].
  - intros (l & p & H & ->). apply at_path_cons in H. destruct H as (w & H & K). exists (l, w). split; [exact H|].
    apply (in_set_field _ x (size w)); [constructor|]. exists p. auto.
Qed.

Definition once (cs : list (string * string)) : bool :=
  (fix go l := match l with [] => true | x :: t => negb (existsb (String.eqb x) t) && go t end) (map fst cs ++ map snd cs)%list.
Lemma once_nodup cs : once cs = true -> NoDup (map fst cs ++ map snd cs).
Proof.
  unfold once. generalize (map fst cs ++ map snd cs)%list as l. induction l as [|x t IH]; [constructor|].
  intros H. apply andb_true_iff in H as [H1 H2]. constructor; auto. intros I.
  apply negb_true_iff in H1. assert (existsb (String.eqb x) t = true); [|congruence].
  apply existsb_exists. exists x. split; [exact I|apply String.eqb_refl].
Qed.
Lemma nd_eigs : NoDup (map fst short_eigs ++ map snd short_eigs).
Proof. apply once_nodup. vm_compute. reflexivity. Qed.
Lemma nd_stage : NoDup (map fst short_stage ++ map snd short_stage).
Proof. apply once_nodup. vm_compute. reflexivity. Qed.
Lemma nd_svds : NoDup (map fst short_svds ++ map snd short_svds).
Proof. apply once_nodup. vm_compute. reflexivity. Qed.

Lemma set_changed cs (fs : fields) n x :
  NoDup (map fst cs ++ map snd cs) -> NoDup (map fst fs) ->
  In (n, x) (set_members "" (changed cs fs)) <->
  exists l p, at_path fs (l :: p) x /\ ~ overridden cs fs l /\ n = member cs l p.
Proof.
  intros N NF. rewrite in_set_members. split.
  - intros (k & p & H & ->). apply changed_path in H; [|assumption..]. destruct H as (l & H & -> & O).
    exists l, p. auto.
  - intros (l & p & H & O & ->). exists (full cs l), p. split; [|reflexivity]. apply changed_path; eauto.
Qed.

(** ** primme_eigs *)

(** The members set are those that the options name, with the values given; an option opts.a.b names the
    member a_b, and a short name the member it stands for. *)
Theorem C71_eigs (fs : fields) s : NoDup (map fst fs) -> eigs_options fs = Ok s ->
  forall n x, In (n, x) s <->
    exists l p, at_path fs (l :: p) x /\ ~ overridden short_eigs fs l /\ n = member short_eigs l p.
Proof.
  intros N H n x. unfold eigs_options in H. destruct (accepted _ _); [|discriminate]. apply ok_inj in H; subst s.
  apply (set_changed short_eigs); [apply nd_eigs|exact N].
Qed.

(** The options are accepted exactly when each names a member of the library; otherwise there is an error. *)
Theorem C71_eigs_accepted (fs : fields) : NoDup (map fst fs) ->
  ((forall l p x, at_path fs (l :: p) x -> ~ overridden short_eigs fs l -> known info_cases (member short_eigs l p)) ->
   exists s, eigs_options fs = Ok s) /\
  (forall l p x, at_path fs (l :: p) x -> ~ overridden short_eigs fs l -> ~ known info_cases (member short_eigs l p) ->
   eigs_options fs = Err).
Proof.
  intros N. unfold eigs_options, accepted. split.
  - intros K. destruct (forallb _ _) eqn:F; [eexists; reflexivity|]. exfalso.
    match type of F with ?a = false => assert (a = true); [|congruence] end.
    apply forallb_forall. intros [n x] I. apply lookup_known. cbn [fst].
    apply (set_changed short_eigs) in I; [|apply nd_eigs|exact N]. destruct I as (l & p & H & O & ->). eauto.
  - intros l p x H O K. destruct (forallb _ _) eqn:F; [|reflexivity]. exfalso. apply K. apply lookup_known.
    rewrite forallb_forall in F. apply (F (member short_eigs l p, x)).
    apply (set_changed short_eigs); [apply nd_eigs|exact N|eauto].
Qed.

Definition is_leaf (f : string * value) : Prop := match snd f with Leaf _ => True | Struct _ => False end.
Lemma flat_path (fs : fields) l p x : Forall is_leaf fs -> at_path fs (l :: p) x -> p = [] /\ In (l, Leaf x) fs.
Proof.
  intros F H. apply at_path_cons in H. destruct H as ([y|gs] & H & K); cbn in K.
  - destruct K as [-> ->]. auto.
  - rewrite Forall_forall in F. destruct (F _ H).
Qed.
Lemma leaf_changed cs (fs : fields) : NoDup (map fst cs ++ map snd cs) -> NoDup (map fst fs) ->
  Forall is_leaf fs -> Forall is_leaf (changed cs fs).
Proof.
  intros N NF F. apply Forall_forall. intros [k v] I. apply changed_in in I; [|assumption..].
  destruct I as (l & I & _). rewrite Forall_forall in F. apply (F _ I).
Qed.
Lemma flat_names (fs : fields) : Forall is_leaf fs -> map fst (set_members "" fs) = map fst fs.
Proof.
  unfold set_members. induction 1 as [|[l [y|gs]] t L F IH]; cbn in *; [reflexivity|congruence|destruct L].
Qed.

(** When no option is a struct, no member is set twice. *)
Theorem C71_eigs_once (fs : fields) s : NoDup (map fst fs) -> Forall is_leaf fs -> eigs_options fs = Ok s ->
  NoDup (map fst s).
Proof.
  intros N F H. unfold eigs_options in H. destruct (accepted _ _); [|discriminate]. apply ok_inj in H; subst s.
  rewrite flat_names by (apply leaf_changed; [apply nd_eigs|exact N|exact F]). apply nodup_changed, N.
Qed.

Definition known_b (names : list (string * Z)) n := existsb (String.eqb n) (map fst names).
Lemma known_b_iff names n : known_b names n = true <-> known names n.
Proof.
  unfold known_b, known. rewrite existsb_exists. split.
  - intros (m & H & E). apply String.eqb_eq in E. subst. exact H.
  - intros H. exists n. split; [exact H|apply String.eqb_refl].
Qed.

(** Every documented option but profiler is accepted, whatever others are given. *)
Theorem C71_eigs_documented_partial (fs : fields) : NoDup (map fst fs) -> Forall is_leaf fs ->
  (forall l, In l (map fst fs) -> In l documented_eigs /\ l <> "profiler") -> exists s, eigs_options fs = Ok s.
Proof.
  intros N F D. apply (C71_eigs_accepted fs N). intros l p x H _. apply flat_path in H; [|exact F].
  destruct H as [-> H]. destruct (D l) as [D1 D2]; [apply (in_map fst) in H; exact H|].
  assert (A : forallb (fun l => String.eqb l "profiler" || known_b info_cases (member short_eigs l [])) documented_eigs = true)
    by (vm_compute; reflexivity).
  rewrite forallb_forall in A. specialize (A l D1). apply orb_true_iff in A as [A|A].
  - apply String.eqb_eq in A. contradiction.
  - apply known_b_iff. exact A.
Qed.

Lemma unknown_err (fs : fields) l x : NoDup (map fst fs) -> In (l, Leaf x) fs ->
  ~ In l (map snd short_eigs) -> known_b info_cases (member short_eigs l []) = false -> eigs_options fs = Err.
Proof.
  intros N H O K. apply (proj2 (C71_eigs_accepted fs N) l [] x).
  - constructor. exact H.
  - intros (o & I & _). apply O. apply (in_map snd) in I. exact I.
  - intros C. apply known_b_iff in C. congruence.
Qed.
Ltac notin := let H := fresh in intros H; vm_compute in H; repeat (destruct H as [H|H]; [discriminate H|]); exact H.

(** The documented option profiler is an error. *)
Theorem C71_profiler_refuted (fs : fields) x : NoDup (map fst fs) -> In ("profiler", Leaf x) fs ->
  In "profiler" documented_eigs /\ eigs_options fs = Err.
Proof.
  intros N H. split; [cbn; tauto|]. apply (unknown_err fs "profiler" x N H); [notin|vm_compute; reflexivity].
Qed.

(** The short name scheme stands for a member that the library does not have. *)
Theorem C71_scheme_refuted (fs : fields) x : NoDup (map fst fs) -> In ("scheme", Leaf x) fs ->
  In ("scheme", "restarting_scheme") short_eigs /\ eigs_options fs = Err.
Proof.
  intros N H. split; [cbn; tauto|]. apply (unknown_err fs "scheme" x N H); [notin|vm_compute; reflexivity].
Qed.

(** ** primme_svds *)
Definition stage_name (w : where_) : string := match w with Stage2 => "primmeStage2" | _ => "primme" end.
Definition is_stage (l : string) : Prop := l = "primme" \/ l = "primmeStage2".

(** What an option of primme_svds sets. *)
Definition names_member (fs : fields) (w : where_) (n : string) (x : V) : Prop :=
  match w with
  | Svds => exists l p, at_path fs (l :: p) x /\ (p = [] \/ ~ is_stage l) /\ ~ overridden short_svds fs l /\
                        n = member short_svds l p
  | _ => exists gs l p, In (stage_name w, Struct gs) fs /\ at_path gs (l :: p) x /\ ~ overridden short_stage gs l /\
                        n = member short_stage l p
  end.

Lemma nodup_stage l (fs : fields) : NoDup (map fst fs) -> NoDup (map fst (stage_moved l fs)).
Proof. intros N. unfold stage_moved. destruct (field l fs) as [[|]|]; auto using nodup_set. Qed.
Definition moved_value (v : value) : value := match v with Struct gs => Struct (changed moved gs) | _ => v end.
Lemma field_stage l k (fs : fields) : field k (stage_moved l fs) =
  if String.eqb k l then option_map moved_value (field k fs) else field k fs.
Proof.
  unfold stage_moved. destruct (String.eqb_spec k l) as [->|D].
  - destruct (field l fs) as [[y|gs]|] eqn:F; cbn; [exact F| |exact F].
    rewrite field_set, String.eqb_refl. reflexivity.
  - destruct (field l fs) as [[y|gs]|] eqn:F; [reflexivity| |reflexivity].
    rewrite field_set. destruct (String.eqb_spec k l); [contradiction|reflexivity].
Qed.

Definition settled (fs : fields) : fields := stage_moved "primmeStage2" (stage_moved "primme" (changed changes_svds fs)).
Lemma settled_in (fs : fields) k v : NoDup (map fst fs) ->
  In (k, v) (settled fs) <-> exists w, In (k, w) (changed short_svds fs) /\
    v = if String.eqb k "primme" || String.eqb k "primmeStage2" then moved_value w else w.
Proof.
  intros N. assert (N1 : NoDup (map fst (changed short_svds fs))) by (apply nodup_changed, N).
  rewrite <- lookup_in by (apply nodup_stage, nodup_stage, N1).
  change (lookup k (settled fs)) with (field k (settled fs)). unfold settled. rewrite !field_stage.
  change changes_svds with short_svds. unfold field.
  assert (G : forall w, lookup k (changed short_svds fs) = Some w <-> In (k, w) (changed short_svds fs))
    by (intros; apply lookup_in, N1).
  destruct (String.eqb_spec k "primmeStage2") as [E2|E2]; destruct (String.eqb_spec k "primme") as [E1|E1];
    [congruence| | |]; cbn [orb].
  - destruct (lookup k (changed short_svds fs)) as [w|] eqn:L; cbn.
    + split; [intros [= <-]; exists w; split; [apply G; reflexivity|reflexivity]|].
      intros (w' & H & ->). apply G in H. congruence.
    + split; [discriminate|]. intros (w' & H & _). apply G in H. discriminate.
  - destruct (lookup k (changed short_svds fs)) as [w|] eqn:L; cbn.
    + split; [intros [= <-]; exists w; split; [apply G; reflexivity|reflexivity]|].
      intros (w' & H & ->). apply G in H. congruence.
    + split; [discriminate|]. intros (w' & H & _). apply G in H. discriminate.
  - rewrite G. split; [eauto|]. intros (w & H & ->). exact H.
Qed.

Lemma stage_kept l (fs : fields) v : is_stage l -> NoDup (map fst fs) ->
  In (l, v) (changed short_svds fs) <-> In (l, v) fs.
Proof.
  intros S N. rewrite changed_in by (apply nd_svds || exact N). split.
  - intros (k & H & E & _). assert (k = l); [|congruence].
    destruct (in_dec string_dec k (map fst short_svds)) as [I|I].
    + exfalso. vm_compute in I. destruct S; subst l; destruct I as [<-|[<-|[<-|[]]]]; discriminate.
    + rewrite full_out in E by exact I. congruence.
  - intros H. exists l. split; [exact H|]. split.
    + destruct S; subst l; reflexivity.
    + intros (o & I & _). vm_compute in I. destruct S; subst l; destruct I as [I|[I|[I|[]]]]; discriminate.
Qed.

Lemma svds_set (fs : fields) w n x : NoDup (map fst fs) ->
  (forall l gs, is_stage l -> In (l, Struct gs) fs -> NoDup (map fst gs)) ->
  In (w, n, x) (flat_map svds_field (settled fs)) <-> names_member fs w n x.
Proof.
  intros N NG. rewrite in_flat_map.
  assert (Q : forall l, is_stage l <-> String.eqb l "primme" || String.eqb l "primmeStage2" = true)
    by (intros l; unfold is_stage; rewrite orb_true_iff, !String.eqb_eq; reflexivity).
  split.
  - intros ([k v] & I & H). apply settled_in in I; [|exact N]. destruct I as (u & I & ->).
    destruct (String.eqb k "primme" || String.eqb k "primmeStage2") eqn:SK.
    + apply Q in SK. apply (stage_kept k fs u SK N) in I. destruct u as [y|gs].
      * cbn in H. destruct H as [[= <- <- <-]|[]]. cbn. exists k, []. split; [constructor; exact I|]. split; [auto|].
        split; [|destruct SK; subst k; reflexivity].
        intros (o & J & _). vm_compute in J. destruct SK; subst k; destruct J as [J|[J|[J|[]]]]; discriminate.
      * cbn [moved_value svds_field fst snd] in H. unfold svds_field in H; cbn [fst snd] in H.
        pose proof (NG k gs SK I) as NS.
        destruct SK as [-> | ->]; cbn in H; apply in_map_iff in H; destruct H as ([m z] & [= <- <- <-] & H);
          apply (set_changed short_stage _ _ _ nd_stage NS) in H; destruct H as (l & p & H & O & ->);
          exists gs, l, p; auto.
    + assert (NS : ~ is_stage k) by (intros C; apply Q in C; congruence).
      apply orb_false_iff in SK as [S1 S2].
      assert (W : w = Svds /\ In (n, x) (set_field "" k u)).
      { unfold svds_field in H; cbn [fst snd] in H. rewrite S1, S2 in H. destruct u as [y|gs].
        - destruct H as [[= <- <- <-]|[]]. cbn. auto.
        - apply in_map_iff in H. destruct H as ([m z] & [= <- <- <-] & H). auto. }
      destruct W as [-> W]. apply (in_set_field n x (size u)) in W; [|constructor]. destruct W as (p & W & ->).
      apply changed_in in I; [|apply nd_svds|exact N]. destruct I as (l & I & -> & O). cbn [names_member].
      exists l, p. split; [apply at_path_cons; eauto|]. split; [|split; [exact O|reflexivity]].
      right. intros C. apply NS. destruct C; subst l; [left|right]; reflexivity.
  - intros H. destruct w; cbn [names_member stage_name] in H.
    + destruct H as (l & p & H & S & O & ->). apply at_path_cons in H. destruct H as (v & I & K).
      assert (I' : In (full short_svds l, v) (changed short_svds fs))
        by (apply changed_in; [apply nd_svds|exact N|eauto]).
      destruct (String.eqb (full short_svds l) "primme" || String.eqb (full short_svds l) "primmeStage2") eqn:SK.
      * assert (SL : is_stage l).
        { apply Q in SK. apply (stage_kept _ fs v SK N) in I'.
          destruct (in_dec string_dec l (map fst short_svds)) as [J|J].
          - exfalso. vm_compute in J. destruct J as [<-|[<-|[<-|[]]]]; destruct SK as [SK|SK]; vm_compute in SK; discriminate.
          - rewrite full_out in SK by exact J. exact SK. }
        destruct S as [-> |S]; [|contradiction]. destruct v as [y|gs]; [|cbn in K; apply at_path_nil in K; contradiction].
        destruct K as [_ ->]. exists (full short_svds l, Leaf x). split; [|left; reflexivity].
        apply settled_in; [exact N|]. exists (Leaf x). rewrite SK. auto.
      * exists (full short_svds l, v). split; [apply settled_in; [exact N|]; exists v; rewrite SK; auto|].
        apply orb_false_iff in SK as [S1 S2].
        assert (W : In (member short_svds l p, x) (set_field "" (full short_svds l) v))
          by (apply (in_set_field _ x (size v)); [constructor|]; exists p; auto).
        unfold svds_field; cbn [fst snd]. rewrite S1, S2. destruct v as [y|gs].
        -- cbn in W. destruct W as [W|[]]. left. injection W as -> ->. reflexivity.
        -- apply in_map_iff. exists (member short_svds l p, x). auto.
    + destruct H as (gs & l & p & I & H & O & ->). pose proof (NG _ _ (or_introl eq_refl) I) as NS.
      exists ("primme", Struct (changed moved gs)). split.
      * apply settled_in; [exact N|]. exists (Struct gs). split; [apply stage_kept; [left; reflexivity|exact N|exact I]|reflexivity].
      * cbn. apply in_map_iff. exists (member short_stage l p, x). split; [reflexivity|].
        apply (set_changed short_stage _ _ _ nd_stage NS). eauto.
    + destruct H as (gs & l & p & I & H & O & ->). pose proof (NG _ _ (or_intror eq_refl) I) as NS.
      exists ("primmeStage2", Struct (changed moved gs)). split.
      * apply settled_in; [exact N|]. exists (Struct gs). split; [apply stage_kept; [right; reflexivity|exact N|exact I]|reflexivity].
      * cbn. apply in_map_iff. exists (member short_stage l p, x). split; [reflexivity|].
        apply (set_changed short_stage _ _ _ nd_stage NS). eauto.
Qed.

(** Options of primme_svds set the members they name; those in opts.primme and opts.primmeStage2 set
    members of the first and second stage. *)
Theorem C71_svds (fs : fields) s : NoDup (map fst fs) ->
  (forall l gs, is_stage l -> In (l, Struct gs) fs -> NoDup (map fst gs)) ->
  svds_options fs = Ok s -> forall w n x, In (w, n, x) s <-> names_member fs w n x.
Proof.
  intros N NG H w n x. unfold svds_options in H. fold (settled fs) in H.
  destruct (forallb _ _); [|discriminate]. apply ok_inj in H; subst s. apply svds_set; assumption.
Qed.

Definition names_of (w : where_) : list (string * Z) := match w with Svds => sinfo_cases | _ => info_cases end.
Theorem C71_svds_accepted (fs : fields) : NoDup (map fst fs) ->
  (forall l gs, is_stage l -> In (l, Struct gs) fs -> NoDup (map fst gs)) ->
  ((forall w n x, names_member fs w n x -> known (names_of w) n) -> exists s, svds_options fs = Ok s) /\
  (forall w n x, names_member fs w n x -> ~ known (names_of w) n -> svds_options fs = Err).
Proof.
  intros N NG. unfold svds_options. fold (settled fs). split.
  - intros K. destruct (forallb _ _) eqn:F; [eexists; reflexivity|]. exfalso.
    match type of F with ?a = false => assert (a = true); [|congruence] end.
    apply forallb_forall. intros [[w n] x] I. apply (lookup_known (names_of w) n). apply (K w n x).
    apply svds_set; assumption.
  - intros w n x H K. destruct (forallb _ _) eqn:F; [|reflexivity]. exfalso. apply K. apply lookup_known.
    rewrite forallb_forall in F. apply (F (w, n, x)). apply svds_set; assumption.
Qed.

(** Every documented option of primme_svds but profiler is accepted, with any options of primme_eigs for
    the stages but profiler, tol, maxit and p. *)
Theorem C71_svds_documented_partial (fs : fields) : NoDup (map fst fs) ->
  (forall l v, In (l, v) fs ->
     match v with
     | Leaf _ => In l documented_svds /\ l <> "profiler"
     | Struct gs => is_stage l /\ NoDup (map fst gs) /\ Forall is_leaf gs /\
                    forall k, In k (map fst gs) -> In k documented_eigs /\ ~ In k ["profiler"; "tol"; "maxit"; "p"]
     end) -> exists s, svds_options fs = Ok s.
Proof.
  intros N D. apply (C71_svds_accepted fs N).
  - intros l gs _ I. apply (D l (Struct gs) I).
  - assert (A : forallb (fun l => String.eqb l "profiler" || known_b sinfo_cases (member short_svds l [])) documented_svds = true)
      by (vm_compute; reflexivity).
    assert (B : forallb (fun l => existsb (String.eqb l) ["profiler"; "tol"; "maxit"; "p"] ||
                                  known_b info_cases (member short_stage l [])) documented_eigs = true)
      by (vm_compute; reflexivity).
    rewrite forallb_forall in A, B.
    assert (St : forall gs l p x, (exists k, In (k, Struct gs) fs) -> at_path gs (l :: p) x ->
                 known info_cases (member short_stage l p)).
    { intros gs l p x (k & I) H. destruct (D k _ I) as (_ & _ & F & E). apply flat_path in H; [|exact F].
      destruct H as [-> H]. destruct (E l) as [E1 E2]; [apply (in_map fst) in H; exact H|].
      specialize (B l E1). apply orb_true_iff in B as [B|B]; [|apply known_b_iff, B].
      exfalso. apply existsb_exists in B. destruct B as (m & M & Q). apply String.eqb_eq in Q. subst. contradiction. }
    intros [| |] n x H; cbn [names_member stage_name names_of] in *.
    + destruct H as (l & p & H & S & _ & ->). apply at_path_cons in H. destruct H as ([y|gs] & I & K).
      * destruct K as [-> ->]. destruct (D l _ I) as [D1 D2]. specialize (A l D1).
        apply orb_true_iff in A as [A|A]; [apply String.eqb_eq in A; contradiction|apply known_b_iff, A].
      * destruct (D l _ I) as (SL & _). destruct S as [-> |S]; [|contradiction]. cbn in K. apply at_path_nil in K. contradiction.
    + destruct H as (gs & l & p & I & H & _ & ->). eapply St; eauto.
    + destruct H as (gs & l & p & I & H & _ & ->). eapply St; eauto.
Qed.

(** The documented option profiler of primme_svds is an error. *)
Theorem C71_svds_profiler_refuted (fs : fields) x : NoDup (map fst fs) ->
  (forall l gs, is_stage l -> In (l, Struct gs) fs -> NoDup (map fst gs)) -> In ("profiler", Leaf x) fs ->
  In "profiler" documented_svds /\ svds_options fs = Err.
Proof.
  intros N NG I. split; [cbn; tauto|]. apply (proj2 (C71_svds_accepted fs N NG) Svds "profiler" x).
  - exists "profiler", []. split; [constructor; exact I|]. split; [auto|]. split; [|reflexivity].
    intros (o & J & _). vm_compute in J. destruct J as [J|[J|[J|[]]]]; discriminate.
  - intros C. apply known_b_iff in C. vm_compute in C. discriminate.
Qed.

(** The stages are documented to take the options of primme_eigs, but tol, maxit and p are errors there. *)
Theorem C71_stage_refuted (fs gs : fields) st l x : NoDup (map fst fs) ->
  (forall l gs, is_stage l -> In (l, Struct gs) fs -> NoDup (map fst gs)) ->
  is_stage st -> In (st, Struct gs) fs -> In l ["tol"; "maxit"; "p"] -> In (l, Leaf x) gs ->
  In l documented_eigs /\ known info_cases (member short_eigs l []) /\ svds_options fs = Err.
Proof.
  intros N NG S I L G. split; [|split].
  - destruct L as [<-|[<-|[<-|[]]]]; cbn; tauto.
  - apply known_b_iff. destruct L as [<-|[<-|[<-|[]]]]; vm_compute; reflexivity.
  - assert (M : forall w, stage_name w = st -> w <> Svds -> names_member fs w l x).
    { intros w E D. assert (Q : exists gs' k p, In (stage_name w, Struct gs') fs /\ at_path gs' (k :: p) x /\
        ~ overridden short_stage gs' k /\ l = member short_stage k p).
      { exists gs, l, []. rewrite E. split; [exact I|]. split; [constructor; exact G|]. split.
        - intros (o & J & _). apply (in_map snd) in J. vm_compute in J.
          destruct L as [<-|[<-|[<-|[]]]]; repeat (destruct J as [J|J]; [discriminate J|]); exact J.
        - destruct L as [<-|[<-|[<-|[]]]]; reflexivity. }
      destruct w; [congruence|exact Q|exact Q]. }
    assert (U : ~ known info_cases l).
    { intros C. apply known_b_iff in C. destruct L as [<-|[<-|[<-|[]]]]; vm_compute in C; discriminate. }
    destruct S as [-> | ->].
    + apply (proj2 (C71_svds_accepted fs N NG) Stage1 l x); [apply M; [reflexivity|discriminate]|exact U].
    + apply (proj2 (C71_svds_accepted fs N NG) Stage2 l x); [apply M; [reflexivity|discriminate]|exact U].
Qed.
End Proofs.

(** Non-vacuity: short, full and nested names together. *)
Example C71_case :
  eigs_options [("tol", Leaf 1); ("LeftQ", Leaf 2); ("correction", Struct [("projectors", Struct [("LeftX", Leaf 3)])]);
                ("eps", Leaf 4); ("locking", Leaf 5)]
  = Ok [("correction_projectors_LeftX", 3); ("eps", 1); ("locking", 5); ("correction_projectors_LeftQ", 2)] /\
  svds_options [("tol", Leaf 1); ("primme", Struct [("maxPrevRetain", Leaf 2); ("locking", Leaf 3)]); ("maxit", Leaf 4)]
  = Ok [(Stage1, "locking", 3); (Stage1, "restarting_maxPrevRetain", 2); (Svds, "eps", 1); (Svds, "maxMatvecs", 4)] /\
  eigs_options [("tol", Leaf 1); ("profiler", Leaf 2)] = Err /\
  svds_options [("primme", Struct [("tol", Leaf 2)])] = Err.
Proof. repeat split; vm_compute; reflexivity. Qed.
