(** Property C48: the generic member interface of the singular value solver. *)
From Coq Require Import String ZArith List Bool Lia.
From Verif Require Import Base FieldsModel ParamsModel MembersModel SpecMembers PropsMembers.
From Verif Require Import SvdsFieldsModel SvdsParamsModel SvdsMembersModel SpecSvdsMembers.
Import ListNotations.
Open Scope Z_scope.

(* ---------------------------------------------------------------- *)
(** ** Tables agree with the header, by computation on the finite tables *)

Lemma sfield_dec : forall f g : sfield, {f = g} + {f <> g}.
Proof. decide equality. Defined.
Definition sfields_eqb (a b : list sfield) : bool :=
  if list_eq_dec sfield_dec a b then true else false.
Lemma sfields_eqb_eq : forall a b, sfields_eqb a b = true -> a = b.
Proof. intros a b. unfold sfields_eqb. destruct (list_eq_dec sfield_dec a b); congruence. Qed.

(** The labels without a setter: three statistics. *)
Definition unsettable : list Z := [43; 45; 54].

Definition sget_ok (r : Z * (string * ctype * list sfield)) : bool :=
  let '(l, (_, _, fs)) := r in
  match switch sget_cases l with Some (Own gs) => sfields_eqb gs fs | _ => false end.
Definition sset_ok (r : Z * (string * ctype * list sfield)) : bool :=
  let '(l, (_, t, fs)) := r in
  existsb (Z.eqb l) unsettable ||
  match switch sset_cases l with
  | Some (Some (k, gs)) => kind_for t k && sfields_eqb gs fs
  | _ => false end.

Lemma slabel_get : forall l nm t fs, In (l, (nm, t, fs)) svds_labels ->
  switch sget_cases l = Some (Own fs).
Proof.
  intros l nm t fs H.
  assert (T : forallb sget_ok svds_labels = true) by (vm_compute; reflexivity).
  rewrite forallb_forall in T. specialize (T _ H). unfold sget_ok in T.
  destruct (switch sget_cases l) as [[gs| |]|]; try discriminate T.
  repeat f_equal. now apply sfields_eqb_eq.
Qed.
Lemma slabel_set : forall l nm t fs, In (l, (nm, t, fs)) svds_labels -> ~ In l unsettable ->
  exists k, switch sset_cases l = Some (Some (k, fs)) /\ kind_for t k = true.
Proof.
  intros l nm t fs H A.
  assert (T : forallb sset_ok svds_labels = true) by (vm_compute; reflexivity).
  rewrite forallb_forall in T. specialize (T _ H). unfold sset_ok in T.
  destruct (existsb (Z.eqb l) unsettable) eqn:E.
  { exfalso. apply A. apply existsb_exists in E. destruct E as (x & I & X).
    apply Z.eqb_eq in X. now subst. }
  cbn [orb] in T. destruct (switch sset_cases l) as [[[k gs]|]|]; try discriminate.
  apply andb_true_iff in T. destruct T as [T1 T2].
  exists k. split; auto. repeat f_equal. now apply sfields_eqb_eq.
Qed.

Lemma sstore_all_spec : forall k t fs vs p,
  kind_for t k = true -> length vs = length fs -> Forall (fits t) vs -> NoDup fs ->
  exists q, sstore_all k fs vs p = Some q /\ map q fs = vs /\
    forall f, ~ In f fs -> q f = p f.
Proof.
  intros k t fs. induction fs as [|f fs IH]; intros [|v vs] p K L F N; try discriminate.
  - exists p. auto.
  - inversion F; subst. inversion N; subst. cbn [sstore_all].
    destruct (IH vs (sset p f (stored k v)) K ltac:(cbn in L; lia) H2 H4) as (q & Q1 & Q2 & Q3).
    exists q. split; [exact Q1|]. split.
    + cbn [map]. f_equal; auto. rewrite Q3 by assumption. rewrite sset_eq.
      eapply stored_fits; eauto.
    + intros g G. rewrite Q3 by (intro; apply G; now right).
      apply sset_neq. intro; subst; apply G; now left.
Qed.

Lemma smembers_disjoint : NoDup (flat_map (fun r => snd (snd r)) svds_labels).
Proof.
  apply (nodupb_sound (fun a b => Z.eqb (sidx a) (sidx b))).
  - intros x y ->. apply Z.eqb_refl.
  - vm_compute. reflexivity.
Qed.

Lemma outside : forall (ks : list Z) l,
  forallb (fun k => existsb (Z.eqb k) (1 :: 2 :: map fst svds_labels)) ks = true ->
  In l ks -> l = 1 \/ l = 2 \/ In l (map fst svds_labels).
Proof.
  intros ks l T J. rewrite forallb_forall in T. specialize (T _ J). apply existsb_exists in T.
  destruct T as (x & T1 & T2). apply Z.eqb_eq in T2. subst x. cbn [In] in T1.
  destruct T1 as [<-|[<-|T1]]; auto.
Qed.

(* ================================================================ *)
(** * Get and set *)

(** Every member of the structure has a label and every label between 1 and 62
    stands for something: the two nested structures or a row of the table. *)
Theorem C48_labels_cover :
  (forall f, exists l nm t fs, In (l, (nm, t, fs)) svds_labels /\ In f fs) /\
  (forall l, 1 <= l <= 62 <-> (l = 1 \/ l = 2 \/ In l (map fst svds_labels))).
Proof.
  split.
  - intro f.
    assert (T : forallb (fun f => existsb (fun r => existsb (fun g => sidx f =? sidx g) (snd (snd r)))
                  svds_labels) all_sfields = true) by (vm_compute; reflexivity).
    rewrite forallb_forall in T.
    assert (I : In f all_sfields) by (eapply nth_error_In; apply sidx_nth).
    specialize (T _ I). apply existsb_exists in T. destruct T as ([l [[nm t] fs]] & I1 & T).
    cbn [snd] in T. apply existsb_exists in T. destruct T as (g & I2 & E).
    exists l, nm, t, fs. split; auto.
    replace f with g; auto. apply Z.eqb_eq in E.
    pose proof (sidx_nth f) as A. pose proof (sidx_nth g) as B. rewrite E in A. congruence.
  - intro l. split.
    + intro H.
      assert (T : forallb (fun k => existsb (Z.eqb k) (1 :: 2 :: map fst svds_labels))
                    (map (fun i => Z.of_nat (S i)) (seq 0 62)) = true) by (vm_compute; reflexivity).
      apply (outside _ l T). apply in_map_iff. exists (Z.to_nat l - 1)%nat. split; [lia|].
      apply in_seq. lia.
    + intros [->|[->|H]]; try lia.
      assert (T : forallb (fun k => (1 <=? k) && (k <=? 62)) (map fst svds_labels) = true)
        by (vm_compute; reflexivity).
      rewrite forallb_forall in T. specialize (T _ H). lia.
Qed.

(** Reading any label gives the member the header documents for it. *)
Theorem C48_get_reads_member : forall p l nm t fs,
  In (l, (nm, t, fs)) svds_labels ->
  svds_get_member p l = (0, Values (map (own p) fs)).
Proof. intros. unfold svds_get_member. now rewrite (slabel_get l nm t fs). Qed.

(** The labels of the nested structures give the structures themselves, so that
    the eigensolver's interface can be used on each; any other number is refused. *)
Theorem C48_get_stages : forall p,
  svds_get_member p 1 = (0, Stage1) /\ svds_get_member p 2 = (0, Stage2) /\
  forall l, ~ 1 <= l <= 62 -> svds_get_member p l = (1, Values []).
Proof.
  intro p. split; [reflexivity|]. split; [reflexivity|]. intros l H. unfold svds_get_member.
  rewrite switch_none; auto. intro J. apply H. apply (proj2 (proj2 C48_labels_cover l)).
  apply (outside (map fst sget_cases) l); [vm_compute; reflexivity|assumption].
Qed.

(** Writing a value its member can hold makes the member equal to it and
    changes nothing else, in particular neither stage. *)
Theorem C48_set_writes_member : forall p l nm t fs vs,
  In (l, (nm, t, fs)) svds_labels -> ~ In l unsettable ->
  length vs = length fs -> Forall (fits t) vs ->
  exists q, svds_set_member p l vs = Some (0, q) /\ map (own q) fs = vs /\
    (forall f, ~ In f fs -> own q f = own p f) /\ st1 q = st1 p /\ st2 q = st2 p.
Proof.
  intros p l nm t fs vs H A L F.
  destruct (slabel_set l nm t fs H A) as (k & S & K).
  assert (N : NoDup fs) by exact (flat_nodup _ _ _ smembers_disjoint H).
  destruct (sstore_all_spec k t fs vs (own p) K L F N) as (q & Q1 & Q2 & Q3).
  exists (Svds q (st1 p) (st2 p)). unfold svds_set_member. rewrite S, Q1. cbn [bind].
  assert (TB : match k with KInt32 => match vs with v :: _ => v >? INT_MAX | [] => false end
               | _ => false end = false).
  { destruct k; auto. destruct vs as [|v vs]; auto. inversion F; subst.
    destruct t; try discriminate K. cbn in H2. unfold INT_MAX.
    destruct (Z.gtb_spec v 2147483647); auto; lia. }
  rewrite TB. cbn [own st1 st2]. auto.
Qed.

(** Round trip and isolation, in terms of the interface only. *)
Theorem C48_set_then_get : forall p l nm t fs vs,
  In (l, (nm, t, fs)) svds_labels -> ~ In l unsettable ->
  length vs = length fs -> Forall (fits t) vs ->
  exists q, svds_set_member p l vs = Some (0, q) /\ svds_get_member q l = (0, Values vs) /\
    forall l', l' <> l -> svds_get_member q l' = svds_get_member p l'.
Proof.
  intros p l nm t fs vs H X L F.
  destruct (C48_set_writes_member p l nm t fs vs H X L F) as (q & Q1 & Q2 & Q3 & _).
  exists q. split; [exact Q1|]. split.
  - rewrite (C48_get_reads_member q l nm t fs H). now rewrite Q2.
  - intros l' D.
    destruct (in_dec Z.eq_dec l' (map fst svds_labels)) as [I|I].
    + apply in_map_iff in I. destruct I as ([l2 [[nm2 t2] fs2]] & E & I). cbn in E; subst l2.
      rewrite !(C48_get_reads_member _ l' nm2 t2 fs2) by assumption. do 2 f_equal.
      apply map_ext_in. intros f Hf. apply Q3. intro Hf'.
      refine (flat_disjoint (fun r => snd (snd r)) svds_labels
               (l', (nm2, t2, fs2)) (l, (nm, t, fs)) f smembers_disjoint I H _ Hf Hf').
      intro E. injection E. congruence.
    + destruct (Z.eq_dec l' 1); [subst; reflexivity|]. destruct (Z.eq_dec l' 2); [subst; reflexivity|].
      destruct (C48_get_stages p) as (_ & _ & O1). destruct (C48_get_stages q) as (_ & _ & O2).
      assert (~ 1 <= l' <= 62)
        by (intro B; apply (proj1 (proj2 C48_labels_cover l')) in B; tauto).
      rewrite O1, O2; auto.
Qed.

(** An integer too large for an [int] member, a stage and a number that is no
    label are refused and leave everything alone. *)
Theorem C48_refused_set_changes_nothing : forall p l vs,
  ~ In l (map fst svds_labels) \/
  (exists nm fs v vs', In (l, (nm, Cint, fs)) svds_labels /\ vs = v :: vs' /\ 2147483647 < v) ->
  svds_set_member p l vs = Some (1, p).
Proof.
  intros p l vs [H|(nm & fs & v & vs' & H & -> & V)]; unfold svds_set_member.
  - destruct (Z.eq_dec l 1); [subst; reflexivity|]. destruct (Z.eq_dec l 2); [subst; reflexivity|].
    rewrite switch_none; auto. intro J.
    apply (outside (map fst sset_cases) l) in J; [tauto|]. vm_compute; reflexivity.
  - assert (U : ~ In l unsettable).
    { intro U.
      assert (E : forallb (fun r => negb (existsb (Z.eqb (fst r)) unsettable) ||
                match snd (fst (snd r)) with Cint => false | _ => true end) svds_labels = true)
        by (vm_compute; reflexivity).
      rewrite forallb_forall in E. specialize (E _ H). cbn [fst snd] in E.
      rewrite orb_false_r in E. apply negb_true_iff in E.
      enough (existsb (Z.eqb l) unsettable = true) by congruence.
      apply existsb_exists. exists l. split; auto. apply Z.eqb_refl. }
    destruct (slabel_set l nm Cint fs H U) as (k & S & K). rewrite S.
    destruct k; try discriminate K. cbv zeta. unfold INT_MAX.
    destruct (Z.gtb_spec v 2147483647); [reflexivity|lia].
Qed.

Example C48_get_set_nonvacuous :
  In (18, ("numSvals"%string, Cint, [S_numSvals])) svds_labels /\ ~ In 18 unsettable /\
  exists q, svds_set_member (svds_initialize 5) 18 [7] = Some (0, q) /\
    svds_get_member q 18 = (0, Values [7]) /\
    svds_get_member q 35 = (0, Values [-1; -1; -1; -1]).
Proof.
  split; [apply (nth_error_In svds_labels 15); reflexivity|].
  split; [cbn; lia|]. eexists; split; [reflexivity|]. split; reflexivity.
Qed.

(** The unrestricted round trip fails: three statistics can be read but not
    set, and an [int] member keeps a wrapped value below the [int] range. *)
Theorem C48_missing_setters_refuted : forall p vs,
  In (43, ("stats_numGlobalSum"%string, Clong, [S_numGlobalSum])) svds_labels /\
  forall l, In l unsettable -> svds_set_member p l vs = Some (1, p) /\
    exists f, svds_get_member p l = (0, Values [own p f]).
Proof.
  intros p vs. split; [apply (nth_error_In svds_labels 40); reflexivity|].
  intros l [<-|[<-|[<-|[]]]]; (split; [reflexivity|eexists; reflexivity]).
Qed.
Theorem C48_negative_overflow_refuted : forall p,
  exists v q, - 2 ^ 63 <= v < 2 ^ 63 /\ svds_set_member p 18 [v] = Some (0, q) /\
    svds_get_member q 18 <> (0, Values [v]).
Proof.
  intro p. exists (-4294967000). eexists. split; [lia|].
  split; [reflexivity|]. vm_compute. discriminate.
Qed.

(* ================================================================ *)
(** * Names, types and arities *)

(** Every label has exactly one name and every name one label. *)
Theorem C48_names_one_to_one :
  NoDup (map fst sinfo_cases) /\ NoDup (map snd sinfo_cases) /\
  (forall nm l, In (nm, l) sinfo_cases <->
     (nm, l) = ("primme"%string, 1) \/ (nm, l) = ("primmeStage2"%string, 2) \/
     exists t fs, In (l, (nm, t, fs)) svds_labels).
Proof.
  split; [|split].
  - apply (nodupb_sound String.eqb); [intros x y ->; apply String.eqb_refl|].
    vm_compute. reflexivity.
  - apply (nodupb_sound Z.eqb); [intros x y ->; apply Z.eqb_refl|]. vm_compute. reflexivity.
  - set (want := ("primme"%string, 1) :: ("primmeStage2"%string, 2) ::
                 map (fun r => (fst (fst (snd r)), fst r)) svds_labels).
    set (eqp := fun c d : string * Z => String.eqb (fst c) (fst d) && (snd c =? snd d)).
    assert (EQ : forall c d, eqp c d = true -> c = d).
    { intros [a b] [a' b'] E. unfold eqp in E. cbn in E. apply andb_true_iff in E.
      destruct E as [E1 E2]. apply String.eqb_eq in E1. apply Z.eqb_eq in E2. now subst. }
    assert (T1 : forallb (fun c => existsb (eqp c) want) sinfo_cases = true) by (vm_compute; reflexivity).
    assert (T2 : forallb (fun c => existsb (eqp c) sinfo_cases) want = true) by (vm_compute; reflexivity).
    assert (W : forall nm l, In (nm, l) want <->
       (nm, l) = ("primme"%string, 1) \/ (nm, l) = ("primmeStage2"%string, 2) \/
       exists t fs, In (l, (nm, t, fs)) svds_labels).
    { intros nm l. unfold want. cbn [In]. rewrite in_map_iff. split.
      - intros [E|[E|([l' [[nm' t] fs]] & E & I)]]; auto. right; right.
        cbn in E. injection E as <- <-. eauto.
      - intros [E|[E|(t & fs & I)]]; auto. right; right. exists (l, (nm, t, fs)). auto. }
    intros nm l. rewrite <- W. rewrite forallb_forall in T1, T2. split; intro I.
    + specialize (T1 _ I). apply existsb_exists in T1. destruct T1 as (d & J & E).
      apply EQ in E. now subst.
    + specialize (T2 _ I). apply existsb_exists in T2. destruct T2 as (d & J & E).
      apply EQ in E. now subst.
Qed.

Lemma stype_table_ok : forall l nm t fs, In (l, (nm, t, fs)) svds_labels -> l <> 35 ->
  switch stype_cases l = Some (svds_type_of nm t fs).
Proof.
  intros l nm t fs H X.
  assert (T : forallb (fun r => (fst r =? 35) || match switch stype_cases (fst r) with
      | Some (a, b) => let w := svds_type_of (fst (fst (snd r))) (snd (fst (snd r))) (snd (snd r)) in
                       (a =? fst w) && (b =? snd w)
      | None => false end) svds_labels = true) by (vm_compute; reflexivity).
  rewrite forallb_forall in T. specialize (T _ H). cbn [fst snd] in T.
  destruct (Z.eqb_spec l 35); [contradiction|]. cbn [orb] in T.
  destruct (switch stype_cases l) as [[a b]|]; [|discriminate].
  apply andb_true_iff in T. destruct T as [A B]. apply Z.eqb_eq in A. apply Z.eqb_eq in B.
  subst. f_equal. destruct (svds_type_of nm t fs); reflexivity.
Qed.

(** Asking by label gives the name, the type and the arity of the member, except
    the arity of [iseed] (35). *)
Theorem C48_info_by_label : forall l nm t fs,
  In (l, (nm, t, fs)) svds_labels -> l <> 35 ->
  svds_member_info (Some l) (Some None)
    = Some (0, Some l, Some (Some nm), Some (svds_type_of nm t fs)).
Proof.
  intros l nm t fs H X. unfold svds_member_info. cbn [andb].
  destruct C48_names_one_to_one as (N1 & N2 & N3).
  rewrite (scan_finds sinfo_cases nm l l None N1 N2).
  - cbn [negb]. now rewrite (stype_table_ok l nm t fs H).
  - apply N3. eauto.
  - left; auto.
Qed.
(** Asking by name gives the label, type and arity, provided the incoming label
    is not itself a valid one. *)
Theorem C48_info_by_name : forall l nm t fs junk,
  In (l, (nm, t, fs)) svds_labels -> l <> 35 -> ~ 1 <= junk <= 62 ->
  svds_member_info (Some junk) (Some (Some nm))
    = Some (0, Some l, Some (Some nm), Some (svds_type_of nm t fs)).
Proof.
  intros l nm t fs junk H X J. unfold svds_member_info. cbn [andb].
  destruct C48_names_one_to_one as (N1 & N2 & N3).
  rewrite (scan_finds sinfo_cases nm l junk (Some nm) N1 N2).
  - cbn [negb]. now rewrite (stype_table_ok l nm t fs H).
  - apply N3. eauto.
  - right. split; auto. intro I. apply J. apply (proj2 (proj2 C48_labels_cover junk)).
    apply (outside (map snd sinfo_cases) junk); [vm_compute; reflexivity|assumption].
Qed.

Lemma scan_nothing : forall cases lab nam,
  ~ In lab (map snd cases) -> (forall s, nam = Some s -> ~ In s (map fst cases)) ->
  fold_left info_step cases (Some lab, Some nam, false) = (Some lab, Some nam, false).
Proof.
  induction cases as [|[F k] cases IH]; intros lab nam A B; cbn [fold_left info_step]; auto.
  cbn [map fst snd In] in A, B.
  assert (X : (match nam with Some s => String.eqb F s | None => false end || (lab =? k)) = false).
  { apply orb_false_iff. split.
    - destruct nam as [s|]; auto. destruct (String.eqb_spec F s); auto. subst. exfalso.
      apply (B s eq_refl). now left.
    - destruct (Z.eqb_spec lab k); auto. subst; exfalso; auto. }
  rewrite X. apply IH; auto. intros s E I. apply (B s E). now right.
Qed.

(** A query for something that is neither a label nor a name is refused and
    leaves the arguments alone. *)
Theorem C48_info_unknown_refused : forall junk s,
  ~ 1 <= junk <= 62 ->
  s <> "primme"%string -> s <> "primmeStage2"%string ->
  (forall l nm t fs, In (l, (nm, t, fs)) svds_labels -> s <> nm) ->
  svds_member_info (Some junk) (Some (Some s)) = Some (1, Some junk, Some (Some s), None).
Proof.
  intros junk s J S1 S2 S3. unfold svds_member_info. cbn [andb].
  destruct C48_names_one_to_one as (N1 & N2 & N3).
  rewrite scan_nothing; auto.
  - intro I. apply J. apply (proj2 (proj2 C48_labels_cover junk)).
    apply (outside (map snd sinfo_cases) junk); [vm_compute; reflexivity|assumption].
  - intros s' E I. injection E as <-. apply in_map_iff in I. destruct I as ([a b] & E & I).
    cbn in E. subst a. apply N3 in I. destruct I as [I|[I|(t & fs & I)]].
    + congruence.
    + congruence.
    + exact (S3 _ _ _ _ I eq_refl).
Qed.

Example C48_info_nonvacuous :
  svds_member_info (Some 0) (Some (Some "stats_timeMatvec"%string))
    = Some (0, Some 49, Some (Some "stats_timeMatvec"%string), Some (1, 1)) /\
  svds_member_info (Some 0) (Some (Some "numEvals"%string))
    = Some (1, Some 0, Some (Some "numEvals"%string), None).
Proof. split; vm_compute; reflexivity. Qed.

(** The announced number of values of [iseed] is one although the member has
    four: a caller who provides the announced number makes the setter read past
    the end of it, and the getter writes four values. *)
Theorem C48_iseed_arity_refuted : forall p v,
  svds_member_info (Some 35) (Some None)
    = Some (0, Some 35, Some (Some "iseed"%string), Some (0, 1)) /\
  svds_set_member p 35 [v] = None /\
  exists a b c d, svds_get_member p 35 = (0, Values [a; b; c; d]).
Proof.
  intros p v. split; [vm_compute; reflexivity|]. split; [reflexivity|].
  do 4 eexists. reflexivity.
Qed.
(** A stale valid label in the output argument wins over the requested name,
    and a name-only query dereferences NULL. *)
Theorem C48_stale_label_wins_refuted :
  svds_member_info (Some 3) (Some (Some "numSvals"%string))
    = Some (0, Some 3, Some (Some "m"%string), Some (0, 1)).
Proof. vm_compute. reflexivity. Qed.
Theorem C48_name_only_query_refuted : forall nm,
  In nm (map fst sinfo_cases) -> svds_member_info None (Some (Some nm)) = None.
Proof.
  intros nm H. unfold svds_member_info. cbn [andb].
  assert (G : forall cases nam (fd : bool), 
     (fd = true \/ exists s, nam = Some s /\ In s (map fst cases)) ->
     exists nam', fold_left info_step cases (None, Some nam, fd) = (None, nam', true)).
  { induction cases as [|[F k] cases IH]; intros nam fd H'.
    - destruct H' as [->|(s & _ & [])]. cbn. eauto.
    - cbn [fold_left info_step]. rewrite orb_false_r.
      destruct nam as [s|].
      + destruct (String.eqb_spec F s).
        * apply IH. now left.
        * apply IH. destruct H' as [->|(s' & E & I)]; [now left|]. right.
          injection E as <-. exists s. split; auto. cbn in I. destruct I as [I|I]; [contradiction|auto].
      + apply IH. destruct H' as [->|(s' & E & I)]; [now left|discriminate]. }
  destruct (G sinfo_cases (Some nm) false) as (nam' & ->); eauto.
Qed.

(* ================================================================ *)
(** * Constants *)

Lemma lookup_none : forall cases s, ~ In s (map fst cases) -> lookup_name cases s = None.
Proof.
  induction cases as [|[n v] cases IH]; cbn; intros s H; auto.
  destruct (String.eqb_spec n s); [exfalso; auto|]. auto.
Qed.

(** Each constant of both headers is known by name with its declared value, and
    a name of neither is known only if the eigensolver knows it. *)
Theorem C48_constants_by_name : forall cs i s,
  In cs (svds_enumerations ++ enumerations) -> nth_error cs i = Some s ->
  svds_constant_info s = (0, Some (Z.of_nat i)).
Proof.
  intros cs i s H N.
  assert (T : forallb (fun cs => forallb (fun k =>
     match nth_error cs k with
     | None => true
     | Some s => match svds_constant_info s with
                 | (0, Some v) => v =? Z.of_nat k | _ => false end
     end) (seq 0 (length cs))) (svds_enumerations ++ enumerations) = true) by (vm_compute; reflexivity).
  rewrite forallb_forall in T. specialize (T _ H). cbv beta in T.
  rewrite forallb_forall in T. specialize (T i). rewrite N in T.
  assert (L : (i < length cs)%nat) by (apply nth_error_Some; congruence).
  specialize (T ltac:(apply in_seq; lia)).
  destruct (svds_constant_info s) as [[|a|a] [v|]]; try discriminate T.
  apply Z.eqb_eq in T. now subst.
Qed.
Theorem C48_other_constants : forall s,
  (forall cs, In cs svds_enumerations -> ~ In s cs) -> svds_constant_info s = constant_info s.
Proof.
  intros s H. unfold svds_constant_info. rewrite lookup_none; auto.
  intro I.
  assert (T : forallb (fun n => existsb (fun cs => existsb (String.eqb n) cs) svds_enumerations)
     (map fst sconstant_cases) = true) by (vm_compute; reflexivity).
  rewrite forallb_forall in T. specialize (T _ I). apply existsb_exists in T.
  destruct T as (cs & J & T). apply existsb_exists in T. destruct T as (x & K & E).
  apply String.eqb_eq in E. subst. exact (H _ J K).
Qed.

(** For the members [target] (19), [method] (22) and [methodStage2] (23) the
    constants of the header's enumeration are translated both ways, and other
    values and names are refused. *)
Definition enumeration_of (l : Z) : list string :=
  if l =? 19 then ["primme_svds_largest"; "primme_svds_smallest"; "primme_svds_closest_abs"]%string
  else ["primme_svds_op_none"; "primme_svds_op_AtA"; "primme_svds_op_AAt"; "primme_svds_op_augmented"]%string.

Theorem C48_enum_names : forall l, In l [19; 22; 23] ->
  In (enumeration_of l) svds_enumerations /\
  (forall i s, nth_error (enumeration_of l) i = Some s ->
     svds_enum_member_info l (Z.of_nat i) None = (0, Z.of_nat i, Some s) /\
     (forall w, w < 0 -> svds_enum_member_info l w (Some s) = (0, Z.of_nat i, Some s))) /\
  (forall v, Z.of_nat (length (enumeration_of l)) <= v ->
     svds_enum_member_info l v None = (-2, v, None)) /\
  (forall w s, w < 0 -> ~ In s (enumeration_of l) ->
     svds_enum_member_info l w (Some s) = (-2, w, Some s)).
Proof.
  intros l H.
  assert (B : exists body, enum_switch senum_cases l = body /\
     map fst body = enumeration_of l /\
     map snd body = map Z.of_nat (seq 0 (length (enumeration_of l))) /\
     NoDup (map fst body) /\ NoDup (map snd body)).
  { destruct H as [<-|[<-|[<-|[]]]]; (eexists; split; [reflexivity|]; split; [reflexivity|];
      split; [reflexivity|]; split;
      [apply (nodupb_sound String.eqb); [intros x y ->; apply String.eqb_refl|reflexivity]
      |apply (nodupb_sound Z.eqb); [intros x y ->; apply Z.eqb_refl|reflexivity]]). }
  destruct B as (body & B0 & B1 & B2 & N1 & N2).
  assert (PIN : forall i s, nth_error (enumeration_of l) i = Some s -> In (s, Z.of_nat i) body).
  { intros i s E. assert (Li : (i < length (enumeration_of l))%nat) by (apply nth_error_Some; congruence).
    assert (E1 : nth_error (map fst body) i = Some s) by (now rewrite B1).
    assert (E2 : nth_error (map snd body) i = Some (Z.of_nat i)).
    { rewrite B2. rewrite nth_error_map. rewrite (nth_error_nth' _ 0%nat) by (rewrite seq_length; auto).
      rewrite seq_nth by auto. reflexivity. }
    rewrite nth_error_map in E1, E2. destruct (nth_error body i) as [[a b]|] eqn:Eb; try discriminate.
    cbn in E1, E2. injection E1 as <-. injection E2 as ->. eapply nth_error_In; eauto. }
  assert (POS : forall x, In x (map snd body) -> 0 <= x < Z.of_nat (length (enumeration_of l))).
  { intros x X. rewrite B2 in X. apply in_map_iff in X. destruct X as (y & <- & Y).
    apply in_seq in Y. lia. }
  split; [destruct H as [<-|[<-|[<-|[]]]]; cbn; auto|]. unfold svds_enum_member_info. rewrite B0.
  split; [|split].
  - intros i s E. specialize (PIN i s E). split.
    + assert (X : (Z.of_nat i >=? 0) && false || (Z.of_nat i <? 0) && negb false = false)
        by (destruct (Z.ltb_spec (Z.of_nat i) 0); [lia|now rewrite andb_false_r]).
      rewrite X. now rewrite (scan_by_value body (Z.of_nat i) s).
    + intros w W.
      assert (X : (w >=? 0) && true || (w <? 0) && negb true = false)
        by (destruct (Z.geb_spec w 0); [lia|now rewrite andb_false_r]).
      rewrite X. rewrite (scan_by_name body (Z.of_nat i) s w); auto.
      intro J. apply POS in J. lia.
  - intros v V.
    assert (X : (v >=? 0) && false || (v <? 0) && negb false = false)
      by (destruct (Z.ltb_spec v 0); [lia|now rewrite andb_false_r]).
    rewrite X.
    enough (E : enum_scan body v None = None) by now rewrite E.
    assert (Q : ~ In v (map snd body)) by (intro J; apply POS in J; lia).
    clear - Q. induction body as [|[m k] body IH]; cbn [enum_scan]; auto. cbn in Q.
    rewrite orb_false_r. destruct (Z.eqb_spec v k); [exfalso; auto|]. auto.
  - intros w s W Hs.
    assert (X : (w >=? 0) && true || (w <? 0) && negb true = false)
      by (destruct (Z.geb_spec w 0); [lia|now rewrite andb_false_r]).
    rewrite X.
    enough (E : enum_scan body w (Some s) = None) by now rewrite E.
    assert (Q : ~ In w (map snd body)) by (intro J; apply POS in J; lia).
    rewrite <- B1 in Hs.
    clear - Q Hs. induction body as [|[m k] body IH]; cbn [enum_scan]; auto. cbn in Q, Hs.
    destruct (Z.eqb_spec w k); [exfalso; auto|]. destruct (String.eqb_spec m s); [exfalso; auto|].
    cbn [orb]. auto.
Qed.

(** The preset methods are translated under the label of [commInfo] (13). *)
Theorem C48_preset_names : forall i s,
  nth_error ["primme_svds_default"; "primme_svds_hybrid"; "primme_svds_normalequations";
             "primme_svds_augmented"]%string i = Some s ->
  svds_enum_member_info 13 (Z.of_nat i) None = (0, Z.of_nat i, Some s) /\
  svds_enum_member_info 13 (-1) (Some s) = (0, Z.of_nat i, Some s).
Proof.
  intros i s H. do 4 (destruct i as [|i]; [injection H as <-; split; vm_compute; reflexivity|]).
  destruct i; discriminate.
Qed.

(** The members whose type is the enumeration of precisions have no
    enumeration names, whatever value they hold. *)
Theorem C48_enum_members_missing_refuted :
  forall l, In l [6; 8; 15; 17; 37; 56; 59] ->
    (exists nm fs, In (l, (nm, Cenum, fs)) svds_labels) /\
    forall v, 0 <= v -> svds_enum_member_info l v None = (-2, v, None).
Proof.
  intros l H. split.
  - assert (T : forallb (fun k => existsb (fun r => (fst r =? k) &&
        match snd (fst (snd r)) with Cenum => true | _ => false end) svds_labels)
        [6; 8; 15; 17; 37; 56; 59] = true) by (vm_compute; reflexivity).
    rewrite forallb_forall in T. specialize (T _ H). apply existsb_exists in T.
    destruct T as ([k [[nm t] fs]] & I & E). cbn [fst snd] in E. apply andb_true_iff in E.
    destruct E as [E1 E2]. apply Z.eqb_eq in E1. subst k. destruct t; try discriminate. eauto.
  - intros v V. unfold svds_enum_member_info.
    assert (X : (v >=? 0) && false || (v <? 0) && negb false = false)
      by (destruct (Z.ltb_spec v 0); [lia|now rewrite andb_false_r]).
    rewrite X. cbn [In] in H.
    destruct H as [<-|[<-|[<-|[<-|[<-|[<-|[<-|[]]]]]]]]; reflexivity.
Qed.
