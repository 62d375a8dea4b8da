(** Property C20: the generic member interface. *)
From Coq Require Import String ZArith List Bool Lia.
From Verif Require Import Base FieldsModel ParamsModel MembersModel SpecMembers.
Import ListNotations.
Open Scope Z_scope.

(* ---------------------------------------------------------------- *)
(** ** Tables agree with the header, by computation on the finite tables *)

Definition fields_eqb (a b : list field) : bool :=
  if list_eq_dec field_dec a b then true else false.
Lemma fields_eqb_eq : forall a b, fields_eqb a b = true -> a = b.
Proof. intros a b. unfold fields_eqb. destruct (list_eq_dec field_dec a b); congruence. Qed.

Definition kind_for (t : ctype) (k : kind) : bool :=
  match t, k with
  | Cint, KInt32 | Clong, KInt64 | Cenum, KEnum | Cdouble, KDouble | Cpointer, KPtr => true
  | _, _ => false
  end.

Definition get_ok (r : Z * (string * ctype * list field)) : bool :=
  let '(l, (_, _, fs)) := r in
  (l =? 13) || (l =? 15) ||
  match switch get_cases l with Some gs => fields_eqb gs fs | None => false end.
Definition set_ok (r : Z * (string * ctype * list field)) : bool :=
  let '(l, (_, t, fs)) := r in
  (l =? 59) || (l =? 61) ||
  match switch set_cases l with
  | Some (k, gs) => kind_for t k && fields_eqb gs fs
  | None => false end.

Lemma get_table_ok : forallb get_ok labels = true.
Proof. vm_compute. reflexivity. Qed.
Lemma set_table_ok : forallb set_ok labels = true.
Proof. vm_compute. reflexivity. Qed.

Lemma label_get : forall l nm t fs, In (l, (nm, t, fs)) labels -> l <> 13 -> l <> 15 ->
  switch get_cases l = Some fs.
Proof.
  intros l nm t fs H A B. pose proof get_table_ok as T. rewrite forallb_forall in T.
  specialize (T _ H). unfold get_ok in T.
  destruct (Z.eqb_spec l 13); [contradiction|]. destruct (Z.eqb_spec l 15); [contradiction|].
  cbn [orb] in T. destruct (switch get_cases l); [|discriminate].
  f_equal. now apply fields_eqb_eq.
Qed.
Lemma label_set : forall l nm t fs, In (l, (nm, t, fs)) labels -> l <> 59 -> l <> 61 ->
  exists k, switch set_cases l = Some (k, fs) /\ kind_for t k = true.
Proof.
  intros l nm t fs H A B. pose proof set_table_ok as T. rewrite forallb_forall in T.
  specialize (T _ H). unfold set_ok in T.
  destruct (Z.eqb_spec l 59); [contradiction|]. destruct (Z.eqb_spec l 61); [contradiction|].
  cbn [orb] in T. destruct (switch set_cases l) as [[k gs]|]; [|discriminate].
  apply andb_true_iff in T. destruct T as [T1 T2].
  exists k. split; auto. repeat f_equal. now apply fields_eqb_eq.
Qed.

Lemma switch_none : forall {A} (c : list (Z * A)) l, ~ In l (map fst c) -> switch c l = None.
Proof.
  induction c as [|[k a] c IH]; cbn; intros l H; auto.
  destruct (Z.eqb_spec k l); [exfalso; auto|]. auto.
Qed.

Lemma stored_fits : forall t k v, kind_for t k = true -> fits t v -> stored k v = v.
Proof.
  intros t k v K F. destruct t, k; try discriminate; cbn in F |- *; auto.
  - unfold wrap32. rewrite Z.mod_small; lia.
  - apply Z.mod_small; lia.
Qed.

Lemma store_all_spec : forall k t fs vs p,
  kind_for t k = true -> length vs = length fs -> Forall (fits t) vs -> NoDup fs ->
  exists q, store_all k fs vs p = Some q /\ map q fs = vs /\
    forall f, ~ In f fs -> q f = p f.
Proof.
  intros k t fs. induction fs as [|f fs IH]; intros [|v vs] p K L F N; try discriminate.
  - exists p. auto.
  - inversion F; subst. inversion N; subst. cbn [store_all].
    destruct (IH vs (set p f (stored k v)) K ltac:(cbn in L; lia) H2 H4) as (q & Q1 & Q2 & Q3).
    exists q. split; [exact Q1|]. split.
    + cbn [map]. f_equal; auto. rewrite Q3 by assumption. rewrite set_eq.
      eapply stored_fits; eauto.
    + intros g G. rewrite Q3 by (intro; apply G; now right).
      apply set_neq. intro; subst; apply G; now left.
Qed.

Fixpoint nodupb {A} (eqb : A -> A -> bool) (l : list A) : bool :=
  match l with
  | [] => true
  | x :: r => negb (existsb (eqb x) r) && nodupb eqb r
  end.
Lemma nodupb_sound : forall {A} (eqb : A -> A -> bool) (R : forall x y, x = y -> eqb x y = true) l,
  nodupb eqb l = true -> NoDup l.
Proof.
  induction l as [|x r IH]; cbn; intro H; constructor.
  - apply andb_true_iff in H. destruct H as [H _]. apply negb_true_iff in H.
    intro I. enough (existsb (eqb x) r = true) by congruence.
    apply existsb_exists. exists x; auto.
  - apply IH. apply andb_true_iff in H. tauto.
Qed.

Lemma members_disjoint : NoDup (flat_map (fun r => snd (snd r)) labels).
Proof.
  apply (nodupb_sound (fun a b => Z.eqb (fidx a) (fidx b))).
  - intros x y ->. apply Z.eqb_refl.
  - vm_compute. reflexivity.
Qed.
Lemma labels_nodup : NoDup (map fst labels).
Proof.
  apply (nodupb_sound Z.eqb); [intros x y ->; apply Z.eqb_refl|]. vm_compute. reflexivity.
Qed.

Lemma NoDup_app_remove_l : forall {A} (l l' : list A), NoDup (l ++ l') -> NoDup l'.
Proof. induction l; cbn; intros l' H; auto. inversion H; auto. Qed.
Lemma NoDup_app_remove_r : forall {A} (l l' : list A), NoDup (l ++ l') -> NoDup l.
Proof.
  induction l; cbn; intros l' H; constructor; inversion H; subst; eauto.
  intro I. apply H2. apply in_or_app; auto.
Qed.

Lemma flat_nodup : forall {A B} (f : A -> list B) (l : list A) a,
  NoDup (flat_map f l) -> In a l -> NoDup (f a).
Proof.
  induction l as [|x l IH]; cbn; intros a N I; [contradiction|].
  apply NoDup_app_remove_r in N as N1. apply NoDup_app_remove_l in N as N2.
  destruct I as [->|I]; auto.
Qed.
Lemma flat_disjoint : forall {A B} (f : A -> list B) (l : list A) a a' b,
  NoDup (flat_map f l) -> In a l -> In a' l -> a <> a' -> In b (f a) -> ~ In b (f a').
Proof.
  induction l as [|x l IH]; cbn; intros a a' b N I I' D H H'; [contradiction|].
  assert (S : forall y, In y l -> In b (f y) -> ~ In b (f x)).
  { intros y Iy Hy Hx. assert (J : In b (flat_map f l)) by (apply in_flat_map; exists y; auto).
    apply in_split in Hx. destruct Hx as (u & w & Hx). rewrite Hx in N.
    rewrite <- app_assoc in N. cbn in N. apply NoDup_remove_2 in N. apply N.
    apply in_or_app; right; apply in_or_app; right; exact J. }
  apply NoDup_app_remove_l in N.
  destruct I as [->|I], I' as [->|I'].
  - contradiction.
  - exact (S a' I' H' H).
  - exact (S a I H H').
  - exact (IH a a' b N I I' D H H').
Qed.

(* ================================================================ *)
(** * Get and set *)

(** Reading a label gives the member the header documents for it.  The labels
    13 and 15 (types of the reduction and broadcast callbacks) are missing. *)
Theorem C20_get_reads_member : forall p l nm t fs,
  In (l, (nm, t, fs)) labels -> l <> 13 -> l <> 15 ->
  get_member p l = (0, map p fs).
Proof.
  intros. unfold get_member. now rewrite (label_get l nm t fs).
Qed.

(** Writing a value its member can hold makes the member equal to it and
    changes nothing else.  The labels 59 and 61 (reduction and broadcast
    counts) are missing. *)
Theorem C20_set_writes_member : forall p l nm t fs vs,
  In (l, (nm, t, fs)) labels -> l <> 59 -> l <> 61 ->
  length vs = length fs -> Forall (fits t) vs ->
  exists q, set_member p l vs = Some (0, q) /\ map q fs = vs /\
    forall f, ~ In f fs -> q f = p f.
Proof.
  intros p l nm t fs vs H A B L F.
  destruct (label_set l nm t fs H A B) as (k & S & K).
  assert (N : NoDup fs).
  { exact (flat_nodup _ _ _ members_disjoint H). }
  destruct (store_all_spec k t fs vs p K L F N) as (q & Q1 & Q2 & Q3).
  exists q. unfold set_member. rewrite S. rewrite Q1. cbn [bind].
  assert (TB : match k with KInt32 => match vs with v :: _ => v >? INT_MAX | [] => false end
               | _ => false end = false).
  { destruct k; auto. destruct vs as [|v vs]; auto. inversion F; subst.
    destruct t; try discriminate K. cbn in H2. unfold INT_MAX.
    destruct (Z.gtb_spec v 2147483647); auto; lia. }
  rewrite TB. auto.
Qed.

(** Round trip and isolation, in terms of the interface only. *)
Theorem C20_set_then_get : forall p l nm t fs vs,
  In (l, (nm, t, fs)) labels -> ~ In l [13; 15; 59; 61] ->
  length vs = length fs -> Forall (fits t) vs ->
  exists q, set_member p l vs = Some (0, q) /\ get_member q l = (0, vs) /\
    forall l', l' <> l -> get_member q l' = get_member p l'.
Proof.
  intros p l nm t fs vs H X L F. cbn [In] in X.
  destruct (C20_set_writes_member p l nm t fs vs H ltac:(clear - X; lia) ltac:(clear - X; lia) L F)
    as (q & Q1 & Q2 & Q3).
  exists q. split; [exact Q1|]. split.
  - rewrite (C20_get_reads_member q l nm t fs H) by (clear - X; lia). now rewrite Q2.
  - intros l' D. unfold get_member.
    destruct (in_dec Z.eq_dec l' (map fst labels)) as [I|I].
    + apply in_map_iff in I. destruct I as ([l2 [[nm2 t2] fs2]] & E & I). cbn in E; subst l2.
      destruct (Z.eq_dec l' 13); [subst; reflexivity|].
      destruct (Z.eq_dec l' 15); [subst; reflexivity|].
      rewrite (label_get l' nm2 t2 fs2) by auto. f_equal. apply map_ext_in.
      intros f Hf. apply Q3. intro Hf'.
      refine (flat_disjoint (fun r => snd (snd r)) labels
               (l', (nm2, t2, fs2)) (l, (nm, t, fs)) f members_disjoint I H _ Hf Hf').
      intro E. injection E. congruence.
    + rewrite switch_none; auto. intro J. apply I.
      revert J. clear. intro J.
      assert (T : forallb (fun k => existsb (Z.eqb k) (map fst labels)) (map fst get_cases) = true)
        by (vm_compute; reflexivity).
      rewrite forallb_forall in T. specialize (T _ J). apply existsb_exists in T.
      destruct T as (x & T1 & T2). apply Z.eqb_eq in T2. subst; auto.
Qed.

(** An integer too large for an [int] member and a number that is no label are
    refused and leave the structure alone. *)
Theorem C20_refused_set_changes_nothing : forall p l vs,
  ~ In l (map fst labels) \/
  (exists nm fs v vs', In (l, (nm, Cint, fs)) labels /\ vs = v :: vs' /\ 2147483647 < v) ->
  set_member p l vs = Some (1, p).
Proof.
  intros p l vs [H|(nm & fs & v & vs' & H & -> & V)]; unfold set_member.
  - rewrite switch_none; auto. intro J. apply H. revert J. clear. intro J.
    assert (T : forallb (fun k => existsb (Z.eqb k) (map fst labels)) (map fst set_cases) = true)
      by (vm_compute; reflexivity).
    rewrite forallb_forall in T. specialize (T _ J). apply existsb_exists in T.
    destruct T as (x & T1 & T2). apply Z.eqb_eq in T2. subst; auto.
  - destruct (Z.eq_dec l 59).
    { subst l. exfalso.
      enough (E : forallb (fun r => negb (fst r =? 59) ||
                match snd (fst (snd r)) with Cint => false | _ => true end) labels = true).
      { rewrite forallb_forall in E. specialize (E _ H). discriminate E. }
      vm_compute; reflexivity. }
    destruct (Z.eq_dec l 61).
    { subst l. exfalso.
      enough (E : forallb (fun r => negb (fst r =? 61) ||
                match snd (fst (snd r)) with Cint => false | _ => true end) labels = true).
      { rewrite forallb_forall in E. specialize (E _ H). discriminate E. }
      vm_compute; reflexivity. }
    destruct (label_set l nm Cint fs H n n0) as (k & S & K). rewrite S.
    destruct k; try discriminate K. cbv zeta. unfold INT_MAX.
    destruct (Z.gtb_spec v 2147483647); [reflexivity|lia].
Qed.

Example C20_get_set_nonvacuous :
  In (23, ("maxBasisSize"%string, Cint, [P_maxBasisSize])) labels /\
  exists q, set_member (primme_initialize 5) 23 [40] = Some (0, q) /\
    get_member q 23 = (0, [40]) /\ get_member q 24 = (0, [0]).
Proof.
  split; [apply (nth_error_In labels 22); reflexivity|]. eexists; split; [reflexivity|]. split; reflexivity.
Qed.

(** The unrestricted round trip fails in three ways: two labels can be set but
    not read, two can be read but not set, and an [int] member silently keeps a
    wrapped value for inputs below the [int] range. *)
Theorem C20_missing_getters_refuted : forall p, 
  In (13, ("globalSumReal_type"%string, Cenum, [P_globalSumReal_type])) labels /\
  get_member p 13 = (1, []) /\ get_member p 15 = (1, []) /\
  exists q, set_member p 13 [3] = Some (0, q) /\ q P_globalSumReal_type = 3.
Proof.
  intro p. split; [apply (nth_error_In labels 12); reflexivity|]. split; [reflexivity|]. split; [reflexivity|].
  eexists; split; reflexivity.
Qed.
Theorem C20_missing_setters_refuted : forall p v,
  In (59, ("stats_numGlobalSum"%string, Clong, [P_numGlobalSum])) labels /\
  set_member p 59 v = Some (1, p) /\ set_member p 61 v = Some (1, p) /\
  get_member p 59 = (0, [p P_numGlobalSum]).
Proof.
  intros p v. split; [apply (nth_error_In labels 58); reflexivity|]. repeat split; reflexivity.
Qed.
Theorem C20_negative_overflow_refuted :
  exists p v q, - 2 ^ 63 <= v < 2 ^ 63 /\ set_member p 23 [v] = Some (0, q) /\
    get_member q 23 <> (0, [v]).
Proof.
  exists (primme_initialize 5), (-4294967000). eexists. split; [lia|].
  split; [reflexivity|]. vm_compute. discriminate.
Qed.

(* ================================================================ *)
(** * Names *)

(** Every label but 13 and 15 has exactly one name and every name one label. *)
Theorem C20_names_one_to_one :
  NoDup (map fst info_cases) /\ NoDup (map snd info_cases) /\
  forall l nm t fs, In (l, (nm, t, fs)) labels ->
    (In (nm, l) info_cases <-> ~ In l [13; 15]).
Proof.
  split; [|split].
  - apply (nodupb_sound String.eqb); [intros x y ->; apply String.eqb_refl|].
    vm_compute. reflexivity.
  - apply (nodupb_sound Z.eqb); [intros x y ->; apply Z.eqb_refl|]. vm_compute. reflexivity.
  - intros l nm t fs H.
    assert (T : forallb (fun r => Bool.eqb
        (existsb (fun c => String.eqb (fst c) (fst (fst (snd r))) && (snd c =? fst r)) info_cases)
        (negb ((fst r =? 13) || (fst r =? 15)))) labels = true) by (vm_compute; reflexivity).
    rewrite forallb_forall in T. specialize (T _ H). cbn [fst snd] in T.
    apply Bool.eqb_prop in T.
    assert (R : In (nm, l) info_cases <->
      existsb (fun c => String.eqb (fst c) nm && (snd c =? l)) info_cases = true).
    { rewrite existsb_exists. split.
      - intro I. exists (nm, l). split; auto. cbn. now rewrite String.eqb_refl, Z.eqb_refl.
      - intros ([a b] & I & E). cbn in E. apply andb_true_iff in E. destruct E as [E1 E2].
        apply String.eqb_eq in E1. apply Z.eqb_eq in E2. now subst. }
    rewrite R, T, negb_true_iff, orb_false_iff, !Z.eqb_neq. cbn. intuition.
Qed.

(** Scanning the lines: a matching state stays put once set. *)
Lemma scan_settled : forall cases nm l,
  (forall c, In c cases -> fst c <> nm /\ snd c <> l) ->
  fold_left info_step cases (Some l, Some (Some nm), true) = (Some l, Some (Some nm), true).
Proof.
  induction cases as [|[F k] cases IH]; intros nm l H; cbn [fold_left info_step]; auto.
  destruct (H (F, k) (or_introl eq_refl)) as [A B]. cbn in A, B.
  destruct (String.eqb_spec F nm); [contradiction|].
  destruct (Z.eqb_spec l k); [congruence|]. cbn [orb]. apply IH. intros c I. apply H. now right.
Qed.

Lemma scan_finds : forall cases nm l (lab : Z) (nam : option string),
  NoDup (map fst cases) -> NoDup (map snd cases) -> In (nm, l) cases ->
  (lab = l /\ (nam = None \/ nam = Some nm)) \/
  (nam = Some nm /\ ~ In lab (map snd cases)) ->
  fold_left info_step cases (Some lab, Some nam, false) = (Some l, Some (Some nm), true).
Proof.
  induction cases as [|[F k] cases IH]; intros nm l lab nam N1 N2 I H; [contradiction|].
  cbn [map fst snd] in N1, N2. inversion N1 as [|? ? N1a N1b]; subst.
  inversion N2 as [|? ? N2a N2b]; subst.
  destruct I as [E|I].
  - injection E as -> ->. cbn [fold_left info_step].
    assert (X : (match nam with Some s => String.eqb nm s | None => false end || (lab =? l)) = true).
    { destruct H as [[-> _]|[-> _]]; [now rewrite Z.eqb_refl, orb_true_r|].
      now rewrite String.eqb_refl. }
    rewrite X. apply scan_settled. intros c J. split; intro; subst.
    + apply N1a. now apply in_map.
    + apply N2a. now apply in_map.
  - cbn [fold_left info_step].
    assert (NF : F <> nm) by (intro; subst; apply N1a; change nm with (fst (nm, l)); now apply in_map).
    assert (NK : k <> l) by (intro; subst; apply N2a; change l with (snd (nm, l)); now apply in_map).
    assert (X : (match nam with Some s => String.eqb F s | None => false end || (lab =? k)) = false).
    { destruct H as [[-> [->| ->]]|[-> H]].
      - cbn. destruct (Z.eqb_spec l k); [congruence|reflexivity].
      - destruct (String.eqb_spec F nm); [contradiction|]. destruct (Z.eqb_spec l k); [congruence|reflexivity].
      - destruct (String.eqb_spec F nm); [contradiction|]. cbn [map snd In] in H.
        destruct (Z.eqb_spec lab k); auto. exfalso; auto. }
    rewrite X. apply IH; auto. destruct H as [H|[H1 H2]]; auto. right. split; auto.
    intro; apply H2; now right.
Qed.

Definition type_of (t : ctype) (l : Z) : Z * Z :=
  match t with
  | Cdouble => (1, 1)
  | Cpointer => if (l =? 19) || (l =? 40) then (1, 0) else if l =? 89 then (3, 1) else (2, 1)
  | _ => (0, if l =? 28 then 4 else 1)
  end.

Lemma type_table_ok : forall l nm t fs, In (l, (nm, t, fs)) labels ->
  switch type_cases l = Some (type_of t l).
Proof.
  intros l nm t fs H.
  assert (T : forallb (fun r => match switch type_cases (fst r) with
      | Some (a, b) => (a =? fst (type_of (snd (fst (snd r))) (fst r))) &&
                       (b =? snd (type_of (snd (fst (snd r))) (fst r)))
      | None => false end) labels = true) by (vm_compute; reflexivity).
  rewrite forallb_forall in T. specialize (T _ H). cbn [fst snd] in T.
  destruct (switch type_cases l) as [[a b]|]; [|discriminate].
  apply andb_true_iff in T. destruct T as [A B]. apply Z.eqb_eq in A. apply Z.eqb_eq in B.
  subst. f_equal. destruct (type_of t l); reflexivity.
Qed.

(** Asking by label gives the name, the type and the arity; asking by name
    gives the label, provided the incoming label is not itself a valid one. *)
Theorem C20_info_by_label : forall l nm t fs,
  In (l, (nm, t, fs)) labels -> ~ In l [13; 15] ->
  member_info (Some l) (Some None) = Some (0, Some l, Some (Some nm), Some (type_of t l)).
Proof.
  intros l nm t fs H X. unfold member_info. cbn [andb].
  destruct C20_names_one_to_one as (N1 & N2 & N3).
  rewrite (scan_finds info_cases nm l l None N1 N2).
  - cbn [negb]. now rewrite (type_table_ok l nm t fs H).
  - now apply (N3 l nm t fs H).
  - left; auto.
Qed.
Theorem C20_info_by_name : forall l nm t fs junk,
  In (l, (nm, t, fs)) labels -> ~ In l [13; 15] -> ~ In junk (map fst labels) ->
  member_info (Some junk) (Some (Some nm))
    = Some (0, Some l, Some (Some nm), Some (type_of t l)).
Proof.
  intros l nm t fs junk H X J. unfold member_info. cbn [andb].
  destruct C20_names_one_to_one as (N1 & N2 & N3).
  rewrite (scan_finds info_cases nm l junk (Some nm) N1 N2).
  - cbn [negb]. now rewrite (type_table_ok l nm t fs H).
  - now apply (N3 l nm t fs H).
  - right. split; auto. intro I. apply J.
    assert (T : forallb (fun k => existsb (Z.eqb k) (map fst labels)) (map snd info_cases) = true)
      by (vm_compute; reflexivity).
    rewrite forallb_forall in T. specialize (T _ I). apply existsb_exists in T.
    destruct T as (x & T1 & T2). apply Z.eqb_eq in T2. subst; auto.
Qed.

Example C20_info_nonvacuous :
  member_info (Some 0) (Some (Some "correction_projectors_SkewX"%string))
    = Some (0, Some 52, Some (Some "correction_projectors_SkewX"%string), Some (0, 1)).
Proof. vm_compute. reflexivity. Qed.

(** A stale valid label in the output argument wins over the requested name,
    two labels have no name, and a name-only query dereferences NULL. *)
Theorem C20_stale_label_wins_refuted :
  member_info (Some 1) (Some (Some "numEvals"%string))
    = Some (0, Some 1, Some (Some "n"%string), Some (0, 1)).
Proof. vm_compute. reflexivity. Qed.
Theorem C20_nameless_labels_refuted :
  member_info (Some 13) (Some None) = Some (1, Some 13, Some None, None) /\
  member_info (Some 15) (Some None) = Some (1, Some 15, Some None, None).
Proof. split; vm_compute; reflexivity. Qed.
Theorem C20_name_only_query_refuted :
  exists nm, In nm (map fst info_cases) /\ member_info None (Some (Some nm)) = None.
Proof. exists "n"%string. split; [left; reflexivity | vm_compute; reflexivity]. Qed.

(* ================================================================ *)
(** * Constants *)

(** Each constant of the header is known by name with its declared value. *)
Theorem C20_constants_by_name : forall cs i s,
  In cs enumerations -> nth_error cs i = Some s ->
  constant_info s = (0, Some (Z.of_nat i)).
Proof.
  intros cs i s H N.
  assert (T : forallb (fun cs => forallb (fun k =>
     match nth_error cs k with
     | None => true
     | Some s => match constant_info s with
                 | (0, Some v) => v =? Z.of_nat k | _ => false end
     end) (seq 0 (length cs))) enumerations = true) by (vm_compute; reflexivity).
  rewrite forallb_forall in T. specialize (T _ H). cbv beta in T.
  rewrite forallb_forall in T. specialize (T i). rewrite N in T.
  assert (L : (i < length cs)%nat) by (apply nth_error_Some; congruence).
  specialize (T ltac:(apply in_seq; lia)).
  destruct (constant_info s) as [[|a|a] [v|]]; try discriminate T.
  apply Z.eqb_eq in T. now subst.
Qed.

(** A string that is no constant is refused. *)
Theorem C20_constants_refused : forall s,
  (forall cs, In cs enumerations -> ~ In s cs) -> constant_info s = (1, None).
Proof.
  intros s H.
  assert (T : forallb (fun c => existsb (String.eqb (fst c)) (concat enumerations)) constant_cases = true)
    by (vm_compute; reflexivity).
  assert (N : ~ In s (concat enumerations)).
  { intros I. apply in_concat in I. destruct I as (cs & I1 & I2). now apply (H cs). }
  unfold constant_info. revert T. generalize constant_cases as l.
  induction l as [|[n v] l IH]; intros T; cbn; auto.
  cbn [forallb fst] in T. apply andb_true_iff in T. destruct T as [T1 T2].
  destruct (String.eqb_spec n s) as [->|E].
  - apply existsb_exists in T1. destruct T1 as (x & I & E). apply String.eqb_eq in E. subst. contradiction.
  - now apply IH.
Qed.
Example C20_constants_refused_case : forall cs, In cs enumerations -> ~ In "primme_smallest_abs"%string cs.
Proof. intros cs H. cbn in H. intuition (subst; cbn in *; intuition discriminate). Qed.

Lemma scan_by_value : forall cases v n, NoDup (map snd cases) -> In (n, v) cases ->
  enum_scan cases v None = Some (v, n).
Proof.
  induction cases as [|[m k] cases IH]; intros v n N I; [contradiction|].
  cbn in N. inversion N; subst. cbn [enum_scan]. rewrite orb_false_r.
  destruct I as [E|I].
  - injection E as -> ->. now rewrite Z.eqb_refl.
  - destruct (Z.eqb_spec v k); auto. subst. exfalso. apply H1.
    change k with (snd (n, k)). now apply in_map.
Qed.
Lemma scan_by_name : forall cases v n w, NoDup (map fst cases) -> In (n, v) cases ->
  ~ In w (map snd cases) -> enum_scan cases w (Some n) = Some (v, n).
Proof.
  induction cases as [|[m k] cases IH]; intros v n w N I W; [contradiction|].
  cbn in N, W. inversion N; subst. cbn [enum_scan].
  destruct (Z.eqb_spec w k); [exfalso; auto|]. cbn [orb].
  destruct I as [E|I].
  - injection E as -> ->. now rewrite String.eqb_refl.
  - destruct (String.eqb_spec m n); auto. subst. exfalso. apply H1.
    change n with (fst (n, v)). now apply in_map.
Qed.

(** For a member with an enumeration type, name -> value and value -> name are
    inverse, and agree with the table of constants. *)
Theorem C20_enum_names_invert : forall l v s,
  In (s, v) (enum_switch enum_cases l) ->
  enum_member_info l v None = (0, v, Some s) /\
  (forall w, w < 0 -> enum_member_info l w (Some s) = (0, v, Some s)) /\
  constant_info s = (0, Some v).
Proof.
  intros l v s H.
  assert (T : forall ls body, In (ls, body) enum_cases ->
     NoDup (map fst body) /\ NoDup (map snd body) /\ (forall x, In x (map snd body) -> 0 <= x)
     /\ (forall a b, In (a, b) body -> constant_info a = (0, Some b))).
  { intros ls body I.
    assert (T : forallb (fun g => nodupb String.eqb (map fst (snd g)) && nodupb Z.eqb (map snd (snd g))
       && forallb (fun x => 0 <=? x) (map snd (snd g))
       && forallb (fun c => match constant_info (fst c) with
                            | (0, Some v) => v =? snd c | _ => false end) (snd g)) enum_cases = true)
      by (vm_compute; reflexivity).
    rewrite forallb_forall in T. specialize (T _ I). cbn [snd] in T.
    rewrite !andb_true_iff in T. destruct T as (((T1 & T2) & T3) & T4).
    split; [apply (nodupb_sound String.eqb); auto; intros x y ->; apply String.eqb_refl|].
    split; [apply (nodupb_sound Z.eqb); auto; intros x y ->; apply Z.eqb_refl|].
    rewrite forallb_forall in T3, T4. split.
    - intros x X. apply Z.leb_le. auto.
    - intros a b X. specialize (T4 _ X). cbn [fst snd] in T4.
      destruct (constant_info a) as [[|z|z] [w|]]; try discriminate T4.
      apply Z.eqb_eq in T4. now subst. }
  assert (G : exists ls body, In (ls, body) enum_cases /\ enum_switch enum_cases l = body).
  { clear T. revert H. generalize enum_cases. intro c.
    induction c as [|[ls body] c IH]; cbn; [contradiction|].
    destruct (existsb (Z.eqb l) ls); intro H.
    - exists ls, body. auto.
    - destruct (IH H) as (a & b & I & E). exists a, b. auto. }
  destruct G as (ls & body & I & E). destruct (T ls body I) as (N1 & N2 & N3 & N4).
  rewrite E in H. unfold enum_member_info. rewrite E. repeat split.
  - assert (P : 0 <= v) by (apply N3; change v with (snd (s, v)); now apply in_map).
    assert (X : (v >=? 0) && false || (v <? 0) && negb false = false).
    { destruct (Z.ltb_spec v 0); [lia|]. now rewrite andb_false_r. }
    rewrite X. now rewrite (scan_by_value body v s).
  - intros w W.
    assert (X : (w >=? 0) && true || (w <? 0) && negb true = false).
    { destruct (Z.geb_spec w 0); [lia|]. now rewrite andb_false_r. }
    rewrite X. rewrite (scan_by_name body v s w); auto.
    intro J. specialize (N3 _ J). lia.
  - now apply N4.
Qed.

Example C20_enum_nonvacuous :
  In ("primme_closest_abs"%string, 4) (enum_switch enum_cases 17).
Proof. apply (nth_error_In _ 4). reflexivity. Qed.

(** Three members of enumeration type have no enumeration names. *)
Theorem C20_enum_members_missing_refuted :
  exists l nm fs, In (l, (nm, Cenum, fs)) labels /\
    forall v, 0 <= v -> enum_member_info l v None = (-2, v, None).
Proof.
  exists 34, "internalPrecision"%string, [P_internalPrecision]. split; [apply (nth_error_In labels 33); reflexivity|].
  intros v V. unfold enum_member_info.
  assert (X : (v >=? 0) && false || (v <? 0) && negb false = false).
  { destruct (Z.ltb_spec v 0); [lia|]. now rewrite andb_false_r. }
  rewrite X. reflexivity.
Qed.

Print Assumptions C20_get_reads_member.
Print Assumptions C20_set_writes_member.
Print Assumptions C20_set_then_get.
Print Assumptions C20_refused_set_changes_nothing.
Print Assumptions C20_missing_getters_refuted.
Print Assumptions C20_missing_setters_refuted.
Print Assumptions C20_negative_overflow_refuted.
Print Assumptions C20_names_one_to_one.
Print Assumptions C20_info_by_label.
Print Assumptions C20_info_by_name.
Print Assumptions C20_stale_label_wins_refuted.
Print Assumptions C20_nameless_labels_refuted.
Print Assumptions C20_name_only_query_refuted.
Print Assumptions C20_constants_by_name.
Print Assumptions C20_enum_names_invert.
Print Assumptions C20_enum_members_missing_refuted.
