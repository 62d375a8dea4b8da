(** C38: the vectors of the singular value solver are where they are documented to be. *)
From Coq Require Import List Arith Bool Lia.
From Verif Require Import Base CopyModel SvdsModel SvdsProofs.
Import ListNotations.

(** svecs as documented: the left constraints and vectors, then the right constraints
    and vectors, one column after another. *)
Definition layout {A} (Uc U Vc V : list (list A)) (rest : list A) : list A :=
  concat Uc ++ concat U ++ concat Vc ++ concat V ++ rest.

(** The arguments fit the sizes: constraints and guesses of the right lengths in an
    array of at least the documented size. *)
Record given {A} (d : dims) (Uc U0 Vc V0 : list (list A)) (rest : list A) : Prop := {
  g_Uc : cols (mL d) Uc; g_U0 : cols (mL d) U0; g_Vc : cols (nL d) Vc; g_V0 : cols (nL d) V0;
  g_nUc : length Uc = noc d; g_nVc : length Vc = noc d;
  g_nU0 : length U0 = init d; g_nV0 : length V0 = init d;
  g_size : (noc d + Nat.max (init d) (nsv d)) * (mL d + nL d)
           <= length (layout Uc U0 Vc V0 rest) }.

(** What the eigensolver does with its array, which begins at [off] and has columns of
    [n] entries: it keeps its [c] constraints, writes its vectors [X] after them, may
    use what is left of the array ([c + room] columns), and touches nothing else. *)
Definition solved {A} (off n c room : nat) (X : list (list A)) (mem mem' : list A) : Prop :=
  cols n X /\ length X <= room /\
  exists before cons old scratch after,
    mem = before ++ cons ++ old ++ after /\ mem' = before ++ cons ++ concat X ++ scratch ++ after /\
    length before = off /\ length cons = n * c /\
    length old = n * room /\ length (concat X ++ scratch) = n * room.

Lemma given_sizes : forall A d (Uc U0 Vc V0 : list (list A)) rest, given d Uc U0 Vc V0 rest ->
  length (concat Uc) = mL d * noc d /\ length (concat U0) = mL d * init d /\
  length (concat Vc) = nL d * noc d /\ length (concat V0) = nL d * init d /\
  init d + noc d <= nMax d /\ nMax d * (mL d + nL d) <= length (layout Uc U0 Vc V0 rest).
Proof.
  intros A d Uc U0 Vc V0 rest [H1 H2 H3 H4 H5 H6 H7 H8 H9].
  pose proof (cols_length _ _ _ H1) as L1. pose proof (cols_length _ _ _ H2) as L2.
  pose proof (cols_length _ _ _ H3) as L3. pose proof (cols_length _ _ _ H4) as L4.
  rewrite H5 in L1. rewrite H6 in L3. rewrite H7 in L2. rewrite H8 in L4.
  assert (init d + noc d <= nMax d) by (unfold nMax; lia).
  assert (nMax d = noc d + Nat.max (init d) (nsv d)) by (unfold nMax; lia).
  repeat split; auto. congruence.
Qed.

Lemma app_split : forall A (a b c e : list A), a ++ b = c ++ e -> length a = length c -> a = c /\ b = e.
Proof.
  induction a as [|x a IH]; intros b [|y c] e E L; cbn [length] in L; try lia; cbn [app] in E; [auto|].
  inversion E; subst. destruct (IH b c e) as [-> ->]; auto.
Qed.

Lemma firstn_split : forall A (l a b : list A), l = a ++ b -> firstn (length a) l = a.
Proof. intros; subst. apply firstn_pre. auto. Qed.

(** Cut a list where its beginning is known and [k] more entries follow. *)
Lemma cut_after : forall A (l a b : list A) n k, l = a ++ b -> n = length a -> n + k <= length l ->
  exists c e, l = a ++ c ++ e /\ length c = k.
Proof.
  intros A l a b n k E -> H. exists (firstn k b), (skipn k b). rewrite firstn_skipn. split; auto.
  subst l. rewrite app_length in H. rewrite firstn_length. lia.
Qed.

(** ** The eigenproblem of A'A. *)

(** What the eigensolver is given: the right constraints and guesses. *)
Theorem C38_AtA_in : forall A d (Uc U0 Vc V0 : list (list A)) rest down,
  given d Uc U0 Vc V0 rest ->
  exists off mem1 between junk,
    from_svds down OpAtA d (layout Uc U0 Vc V0 rest) = Some (off, mem1) /\
    length mem1 = length (layout Uc U0 Vc V0 rest) /\
    mem1 = concat Uc ++ between ++ concat Vc ++ concat V0 ++ junk /\
    off = length (concat Uc ++ between) /\
    off = nMax d * mL d /\ off + nL d * nMax d <= length mem1.
Proof.
  intros A d Uc U0 Vc V0 rest down G.
  pose proof (given_sizes _ _ _ _ _ _ _ G) as (L1 & L2 & L3 & L4 & N & S). cbn [from_svds].
  set (mem := layout Uc U0 Vc V0 rest) in *.
  assert (Hn : length (concat Vc ++ concat V0) = nL d * (init d + noc d)) by (rewrite app_length; nia).
  assert (nL d * (init d + noc d) <= nMax d * nL d) by nia.
  assert (mL d * noc d <= nMax d * mL d) by nia.
  rewrite (copy_eq A mem (concat Uc ++ concat U0) (concat Vc ++ concat V0) rest).
  2:{ unfold mem, layout. rewrite <- !app_assoc. reflexivity. }
  2:{ rewrite app_length. nia. }
  2:{ auto. }
  2:{ nia. }
  cbn [bind].
  assert (Lf : length (firstn (nMax d * mL d) mem) = nMax d * mL d) by (rewrite firstn_length; nia).
  assert (Ef : firstn (nMax d * mL d) mem = concat Uc ++ skipn (mL d * noc d) (firstn (nMax d * mL d) mem)).
  { rewrite <- (firstn_skipn (mL d * noc d) (firstn (nMax d * mL d) mem)) at 1. f_equal.
    rewrite firstn_firstn, Nat.min_l by auto. unfold mem, layout. apply firstn_pre. auto. }
  eexists _, _, (skipn (mL d * noc d) (firstn (nMax d * mL d) mem)), _. split; [reflexivity|].
  rewrite <- Ef. split.
  { rewrite !app_length, Lf, skipn_length. rewrite app_length in Hn. nia. }
  split; [rewrite (app_assoc (concat Uc)), <- Ef, <- !app_assoc; reflexivity|]. rewrite Lf. split; auto. split; auto.
  rewrite !app_length, Lf, skipn_length. rewrite app_length in Hn. nia.
Qed.

Lemma AtA_out : forall A d (Uc Vc X : list (list A)) (between scratch : list A) up Av Atu uU uV,
  cols (mL d) Uc -> length Uc = noc d -> cols (nL d) Vc -> length Vc = noc d ->
  cols (nL d) X -> length X + noc d <= nMax d ->
  (forall i v, In v X -> length (Av i v) = mL d) ->
  length (concat Uc ++ between) = nMax d * mL d ->
  exists rest, to_svds up Av Atu uU uV OpAtA d (length X)
                 (concat Uc ++ between ++ concat Vc ++ concat X ++ scratch) =
    Some (layout Uc (mapi Av 0 X) Vc X rest) /\
    length (layout Uc (mapi Av 0 X) Vc X rest) =
    length (concat Uc ++ between ++ concat Vc ++ concat X ++ scratch).
Proof.
  intros A d Uc Vc X between junk up Av Atu uU uV CU LU CV LV CX HK HA HB.
  pose proof (cols_length _ _ _ CU) as L1. pose proof (cols_length _ _ _ CV) as L3.
  pose proof (cols_length _ _ _ CX) as L4. rewrite LU in L1. rewrite LV in L3.
  set (k := length X) in *. cbn [to_svds eigLocal].
  assert (CA : cols (mL d) (mapi Av 0 X)) by (apply mapi_cols; auto).
  pose proof (cols_length _ _ _ CA) as L5. rewrite mapi_length in L5. fold k in L5.
  destruct (cut_after A between [] between 0 (mL d * k)) as (mid & tail & E & LM); auto.
  { rewrite app_length in HB. nia. }
  cbn [app] in E. subst between.
  pose proof (read_whole A (nL d) X (concat Uc ++ (mid ++ tail) ++ concat Vc) junk CX) as R.
  rewrite <- !app_assoc in R. cbn [app] in R. rewrite <- !app_assoc.
  replace (mL d * nMax d + nL d * noc d) with (length (concat Uc ++ mid ++ tail ++ concat Vc))
    by (rewrite !app_length in *; nia).
  fold k in R. rewrite R. cbn [bind].
  pose proof (write_over A (mL d) (mapi Av 0 X) (concat Uc) mid (tail ++ concat Vc ++ concat X ++ junk) CA) as W.
  rewrite mapi_length in W. rewrite <- L1. rewrite W by auto. cbn [bind].
  rewrite (copy_eq A _ (concat Uc ++ concat (mapi Av 0 X) ++ tail) (concat Vc ++ concat X) junk).
  2:{ rewrite <- !app_assoc. reflexivity. }
  2:{ rewrite !app_length in *. nia. }
  2:{ rewrite app_length. nia. }
  2:{ rewrite !app_length in *. nia. }
  eexists. split.
  - f_equal. unfold layout.
    rewrite (app_assoc (concat Uc) (concat (mapi Av 0 X)) (tail ++ concat Vc ++ concat X ++ junk)),
      (firstn_pre A (concat Uc ++ concat (mapi Av 0 X))).
    2:{ rewrite app_length. nia. }
    rewrite <- !app_assoc. reflexivity.
  - unfold layout. rewrite !app_length, skipn_length, !app_length in *. nia.
Qed.

(** What the caller gets back: the constraints as they were, the vectors found, and for
    each the left vector computed from it. *)
Theorem C38_AtA : forall A d (Uc U0 Vc V0 X : list (list A)) rest down up Av Atu uU uV off mem1 mem2,
  given d Uc U0 Vc V0 rest ->
  from_svds down OpAtA d (layout Uc U0 Vc V0 rest) = Some (off, mem1) ->
  solved off (nL d) (noc d) (Nat.max (init d) (nsv d)) X mem1 mem2 ->
  (forall i v, In v X -> length (Av i v) = mL d) ->
  exists rest', to_svds up Av Atu uU uV OpAtA d (length X) mem2 =
    Some (layout Uc (mapi Av 0 X) Vc X rest') /\
    length (layout Uc (mapi Av 0 X) Vc X rest') = length (layout Uc U0 Vc V0 rest).
Proof.
  intros A d Uc U0 Vc V0 X rest down up Av Atu uU uV off mem1 mem2 G F (CX & LX & S) HA.
  pose proof (given_sizes _ _ _ _ _ _ _ G) as (L1 & L2 & L3 & L4 & N & Sz).
  destruct (C38_AtA_in A d Uc U0 Vc V0 rest down G) as (off' & mem' & bt & junk & F' & LM & EM & EO & EO' & _).
  rewrite F in F'. injection F' as Eo Em. rewrite <- Em in EM, LM. rewrite <- Eo in EO, EO'. clear Eo Em.
  destruct S as (before & cons & old & scratch & after & E1 & E2 & Lb & Lc & Lo & Ls).
  rewrite E1 in EM. replace (concat Uc ++ bt ++ concat Vc ++ concat V0 ++ junk) with
    ((concat Uc ++ bt) ++ concat Vc ++ concat V0 ++ junk) in EM by (rewrite <- app_assoc; reflexivity).
  apply app_split in EM; [|congruence]. destruct EM as [-> EM].
  apply app_split in EM; [|congruence]. destruct EM as [-> EM].
  destruct (AtA_out A d Uc Vc X bt (scratch ++ after) up Av Atu uU uV) as (r & T & LT);
    try apply G; auto.
  { unfold nMax. lia. } { congruence. }
  exists r. rewrite E2. rewrite <- app_assoc. split; auto.
  rewrite LT, <- LM, E1. rewrite !app_length in *. lia.
Qed.

(** ** The eigenproblem of AA'. *)

Theorem C38_AAt_in : forall A d (Uc U0 Vc V0 : list (list A)) rest down,
  given d Uc U0 Vc V0 rest ->
  exists mem1 junk rest1,
    from_svds down OpAAt d (layout Uc U0 Vc V0 rest) = Some (0, mem1) /\
    length mem1 = length (layout Uc U0 Vc V0 rest) /\
    mem1 = concat Uc ++ concat U0 ++ junk ++ concat Vc ++ rest1 /\
    length (concat Uc ++ concat U0 ++ junk) = mL d * nMax d.
Proof.
  intros A d Uc U0 Vc V0 rest down G.
  pose proof (given_sizes _ _ _ _ _ _ _ G) as (L1 & L2 & L3 & L4 & N & S). cbn [from_svds].
  set (mem := layout Uc U0 Vc V0 rest) in *.
  assert (nL d * noc d <= nMax d * nL d) by nia.
  assert (mL d * (init d + noc d) <= nMax d * mL d) by nia.
  rewrite (copy_eq A mem (concat Uc ++ concat U0) (concat Vc) (concat V0 ++ rest)).
  2:{ unfold mem, layout. rewrite <- !app_assoc. reflexivity. }
  2:{ rewrite app_length. nia. }
  2:{ auto. }
  2:{ nia. }
  cbn [bind].
  assert (Lf : length (firstn (nMax d * mL d) mem) = nMax d * mL d) by (rewrite firstn_length; nia).
  assert (Ef : firstn (nMax d * mL d) mem =
    (concat Uc ++ concat U0) ++ skipn (mL d * (init d + noc d)) (firstn (nMax d * mL d) mem)).
  { rewrite <- (firstn_skipn (mL d * (init d + noc d)) (firstn (nMax d * mL d) mem)) at 1. f_equal.
    rewrite firstn_firstn, Nat.min_l by auto. unfold mem, layout. rewrite app_assoc. apply firstn_pre.
    rewrite app_length. nia. }
  eexists _, (skipn (mL d * (init d + noc d)) (firstn (nMax d * mL d) mem)), _. split; [reflexivity|].
  split.
  { rewrite !app_length, Lf, skipn_length. nia. }
  split; [rewrite Ef at 1; rewrite <- !app_assoc; reflexivity|].
  rewrite app_assoc, <- Ef, Lf. lia.
Qed.

(** Without constraints, or when as many rows as columns are stored, the vectors come
    back in their places. *)
Theorem C38_AAt_partial : forall A d (Uc U0 Vc V0 X : list (list A)) rest down up Av Atu uU uV off mem1 mem2,
  given d Uc U0 Vc V0 rest ->
  noc d = 0 \/ mL d = nL d ->
  from_svds down OpAAt d (layout Uc U0 Vc V0 rest) = Some (off, mem1) ->
  solved off (mL d) (noc d) (Nat.max (init d) (nsv d)) X mem1 mem2 ->
  (forall i u, In u X -> length (Atu i u) = nL d) ->
  exists rest', to_svds up Av Atu uU uV OpAAt d (length X) mem2 =
    Some (layout Uc X Vc (mapi Atu 0 X) rest') /\
    length (layout Uc X Vc (mapi Atu 0 X) rest') = length (layout Uc U0 Vc V0 rest).
Proof.
  intros A d Uc U0 Vc V0 X rest down up Av Atu uU uV off mem1 mem2 G Hsq F (CX & LX & S) HA.
  pose proof (given_sizes _ _ _ _ _ _ _ G) as (L1 & L2 & L3 & L4 & N & Sz).
  destruct (C38_AAt_in A d Uc U0 Vc V0 rest down G) as (mem' & junk & r1 & F' & LM & EM & EO).
  rewrite F in F'. injection F' as -> Em. rewrite <- Em in EM, LM. clear Em.
  destruct S as (before & cons & old & scratch & after & E1 & E2 & Lb & Lc & Lo & Ls).
  destruct before; [|cbn [length] in Lb; lia]. cbn [app] in E1, E2. rewrite E1 in EM.
  apply app_split in EM; [|congruence]. destruct EM as [-> EM].
  replace (concat U0 ++ junk ++ concat Vc ++ r1) with ((concat U0 ++ junk) ++ concat Vc ++ r1) in EM
    by (rewrite <- app_assoc; reflexivity).
  apply app_split in EM.
  2:{ rewrite !app_length in *. unfold nMax in EO. nia. }
  destruct EM as [-> ->].
  assert (LT : length mem2 = length (layout Uc U0 Vc V0 rest)).
  { rewrite <- LM, E1, E2. rewrite !app_length in *. lia. }
  rewrite <- LT in *. clear LT E1 F LM. subst mem2. set (k := length X) in *.
  pose proof (cols_length _ _ _ CX) as LX'. fold k in LX'.
  assert (CA : cols (nL d) (mapi Atu 0 X)) by (apply mapi_cols; auto).
  pose proof (cols_length _ _ _ CA) as L5. rewrite mapi_length in L5. fold k in L5.
  assert (HK : k + noc d <= nMax d) by (unfold nMax; lia).
  cbn [to_svds eigLocal].
  assert (Ht : mL d * noc d = nL d * noc d) by (destruct Hsq as [-> | ->]; lia). rewrite Ht.
  set (mem := concat Uc ++ concat X ++ scratch ++ concat Vc ++ r1) in *.
  assert (LM : length (concat Uc ++ concat X ++ scratch) = mL d * nMax d).
  { rewrite !app_length in *. unfold nMax. nia. }
  rewrite (copy_eq A mem (concat Uc ++ concat X ++ scratch) (concat Vc) r1).
  2:{ unfold mem. rewrite <- !app_assoc. reflexivity. }
  2:{ auto. } 2:{ auto. }
  2:{ nia. }
  cbn [bind].
  replace (firstn (mL d * (k + noc d)) mem) with (concat Uc ++ concat X).
  2:{ unfold mem. rewrite app_assoc, firstn_pre; auto. rewrite app_length. nia. }
  set (tl := skipn _ mem).
  assert (LTl : length tl = length mem - (mL d * (k + noc d) + nL d * noc d)) by apply skipn_length.
  rewrite <- app_assoc.
  pose proof (read_whole A (mL d) X (concat Uc) (concat Vc ++ tl) CX) as R.
  fold k in R. rewrite <- Ht. rewrite L1 in R. rewrite R. cbn [bind].
  assert (Hfit : mL d * (k + noc d) + nL d * (k + noc d) <= length mem).
  { clear - Sz HK. transitivity (nMax d * (mL d + nL d)); [|exact Sz]. nia. }
  assert (nL d * k <= length tl) by (rewrite LTl; clear - Hfit; nia).
  rewrite <- (firstn_skipn (nL d * k) tl).
  pose proof (write_over A (nL d) (mapi Atu 0 X) (concat Uc ++ concat X ++ concat Vc)
    (firstn (nL d * k) tl) (skipn (nL d * k) tl) CA) as W.
  rewrite mapi_length in W. fold k in W. rewrite <- !app_assoc in W.
  replace (mL d * (k + noc d) + mL d * noc d) with (length (concat Uc ++ concat X ++ concat Vc))
    by (rewrite !app_length; nia).
  rewrite W.
  2:{ rewrite firstn_length. lia. }
  exists (skipn (nL d * k) tl). split; [reflexivity|].
  unfold layout. rewrite !app_length, skipn_length.
  rewrite Nat.mul_add_distr_l in *. lia.
Qed.

(** ** The augmented eigenproblem. *)

(** A column is a right vector followed by a left one. *)
Fixpoint stack {A} (V U : list (list A)) : list (list A) :=
  match V, U with v :: V', u :: U' => (v ++ u) :: stack V' U' | _, _ => [] end.


Lemma stack_length : forall A (V U : list (list A)), length U = length V -> length (stack V U) = length V.
Proof. induction V as [|v V IH]; intros [|u U] L; cbn [length] in L; try lia; cbn [stack length]; auto. Qed.
Lemma stack_cols : forall A m n (V U : list (list A)), cols n V -> cols m U -> cols (n + m) (stack V U).
Proof.
  intros A m n V U CV. revert U. induction CV as [|v V Hv CV IH]; intros U CU; cbn [stack]; [constructor|].
  destruct CU as [|u U Hu CU]; constructor; [rewrite app_length; lia|]. apply IH. exact CU.
Qed.
Lemma stack_app : forall A (V U V' U' : list (list A)), length U = length V ->
  stack (V ++ V') (U ++ U') = stack V U ++ stack V' U'.
Proof.
  induction V as [|v V IH]; intros [|u U] V' U' L; cbn [length] in L; try lia; [reflexivity|].
  cbn [app stack]. rewrite IH by lia. reflexivity.
Qed.
Lemma cols_app : forall A m (X Y : list (list A)), cols m X -> cols m Y -> cols m (X ++ Y).
Proof. intros. apply Forall_app. auto. Qed.
Lemma cols_map : forall A m (X : list (list A)) (f : A -> A), cols m X -> cols m (map (map f) X).
Proof. intros A m X f C. induction C; cbn [map]; constructor; auto. rewrite map_length. auto. Qed.
Lemma concat_map_map : forall A (X : list (list A)) (f : A -> A), concat (map (map f) X) = map f (concat X).
Proof. intros. symmetry. apply concat_map. Qed.

(** Reading the upper or the lower part of stacked columns. *)
Definition upper {A} (v u : list A) : @part3 A := ([], v, u).
Definition lower {A} (v u : list A) : @part3 A := (v, u, []).
Fixpoint zip3 {A} (f : list A -> list A -> @part3 A) (V U : list (list A)) : list (@part3 A) :=
  match V, U with v :: V', u :: U' => f v u :: zip3 f V' U' | _, _ => [] end.
Lemma zip_upper : forall A (V U : list (list A)), map join3 (zip3 upper V U) = stack V U.
Proof. induction V as [|v V IH]; intros [|u U]; cbn [zip3 map stack]; auto. rewrite IH. reflexivity. Qed.
Lemma zip_lower : forall A (V U : list (list A)), map join3 (zip3 lower V U) = stack V U.
Proof.
  induction V as [|v V IH]; intros [|u U]; cbn [zip3 map stack]; auto. rewrite IH.
  unfold join3, lower. cbn [fst snd]. rewrite app_nil_r. reflexivity.
Qed.
Lemma zip_length : forall A f (V U : list (list A)), length U = length V -> length (zip3 f V U) = length V.
Proof. induction V as [|v V IH]; intros [|u U] L; cbn [length] in L; try lia; cbn [zip3 length]; auto. Qed.
Lemma mid_upper : forall A (V U : list (list A)), length U = length V -> map mid (zip3 upper V U) = V.
Proof. induction V as [|v V IH]; intros [|u U] L; cbn [length] in L; try lia; cbn [zip3 map]; auto. rewrite IH by lia. reflexivity. Qed.
Lemma mid_lower : forall A (V U : list (list A)), length U = length V -> map mid (zip3 lower V U) = U.
Proof. induction V as [|v V IH]; intros [|u U] L; cbn [length] in L; try lia; cbn [zip3 map]; auto. rewrite IH by lia. reflexivity. Qed.
Lemma upper_shaped : forall A n m (V U : list (list A)), cols n V -> cols m U ->
  Forall (shaped 0 n (m + n)) (zip3 upper V U).
Proof.
  intros A n m V U CV. revert U. induction CV as [|v V Hv CV IH]; intros U CU; cbn [zip3]; [constructor|].
  destruct CU as [|u U Hu CU]; constructor; [|apply IH; exact CU].
  unfold shaped, mid, join3, upper. cbn [fst snd length app]. rewrite app_length. repeat split; lia.
Qed.
Lemma lower_shaped : forall A n m (V U : list (list A)), cols n V -> cols m U ->
  Forall (shaped n m (m + n)) (zip3 lower V U).
Proof.
  intros A n m V U CV. revert U. induction CV as [|v V Hv CV IH]; intros U CU; cbn [zip3]; [constructor|].
  destruct CU as [|u U Hu CU]; constructor; [|apply IH; exact CU].
  unfold shaped, mid, join3, lower. cbn [fst snd length app]. rewrite !app_length. cbn [length]. repeat split; lia.
Qed.

Lemma read_upper : forall A n m (V U : list (list A)) rest, cols n V -> cols m U -> length U = length V ->
  read_cols (concat (stack V U) ++ rest) 0 n (m + n) (length V) = Some V.
Proof.
  intros A n m V U rest CV CU L.
  pose proof (read_cols_mid A 0 n (m + n) (zip3 upper V U) [] rest (upper_shaped _ _ _ _ _ CV CU)) as R.
  rewrite zip_upper, zip_length, mid_upper in R by auto. exact R.
Qed.
Lemma read_lower : forall A n m (V U : list (list A)) rest, cols n V -> cols m U -> length U = length V ->
  read_cols (concat (stack V U) ++ rest) n m (m + n) (length V) = Some U.
Proof.
  intros A n m V U rest CV CU L.
  pose proof (read_cols_mid A n m (m + n) (zip3 lower V U) [] rest (lower_shaped _ _ _ _ _ CV CU)) as R.
  rewrite zip_lower, zip_length, mid_lower in R by auto. exact R.
Qed.

(** Writing them, whatever was in the array. *)
Lemma replace_upper : forall A (V W U : list (list A)), length V = length W -> length U = length W ->
  replace_all V (zip3 upper W U) = zip3 upper V U.
Proof.
  induction V as [|v V IH]; intros [|w W] [|u U] L1 L2; cbn [length] in *; try lia; [reflexivity|].
  cbn [zip3 replace_all]. rewrite IH by lia. reflexivity.
Qed.
Lemma replace_lower : forall A (U W V : list (list A)), length U = length W -> length V = length W ->
  replace_all U (zip3 lower V W) = zip3 lower V U.
Proof.
  induction U as [|u U IH]; intros [|w W] [|v V] L1 L2; cbn [length] in *; try lia; [reflexivity|].
  cbn [zip3 replace_all]. rewrite IH by lia. reflexivity.
Qed.

Lemma unstack : forall A n m k (l : list A), length l = (m + n) * k ->
  exists V U, cols n V /\ cols m U /\ length V = k /\ length U = k /\ l = concat (stack V U).
Proof.
  intros A n m. induction k as [|k IH]; intros l L.
  - exists [], []. destruct l; [|cbn [length] in L; lia]. repeat split; constructor.
  - destruct (IH (skipn (n + m) l)) as (V & U & CV & CU & LV & LU & E).
    { rewrite skipn_length. nia. }
    exists (firstn n l :: V), (firstn m (skipn n l) :: U).
    assert (length (firstn n l) = n) by (rewrite firstn_length; nia).
    assert (length (firstn m (skipn n l)) = m) by (rewrite firstn_length, skipn_length; nia).
    repeat split; try (constructor; auto); cbn [length]; auto.
    cbn [stack concat]. rewrite <- E.
    rewrite <- (firstn_skipn n l) at 1. rewrite <- app_assoc. f_equal.
    rewrite <- (firstn_skipn m (skipn n l)) at 1. f_equal.
    clear. revert l. induction n as [|n IH]; intros l; [reflexivity|].
    destruct l; cbn [skipn Nat.add]; [destruct m; reflexivity|apply IH].
Qed.

Lemma write_stack : forall A n m (V U : list (list A)) old rest, cols n V -> cols m U ->
  length U = length V -> length old = (m + n) * length V ->
  exists m1, write_cols (old ++ rest) 0 (m + n) V = Some m1 /\
             write_cols m1 n (m + n) U = Some (concat (stack V U) ++ rest).
Proof.
  intros A n m V U old rest CV CU L LO.
  destruct (unstack A n m (length V) old LO) as (W & Y & CW & CY & LW & LY & ->).
  pose proof (write_cols_mid A 0 n (m + n) V (zip3 upper W Y) [] rest (upper_shaped _ _ _ _ _ CW CY) CV) as H.
  rewrite zip_upper, zip_length, replace_upper, zip_upper in H by lia. cbn [app length Nat.add] in H.
  eexists. split; [apply H; lia|].
  pose proof (write_cols_mid A n m (m + n) U (zip3 lower V Y) [] rest (lower_shaped _ _ _ _ _ CV CY) CU) as H2.
  rewrite zip_lower, zip_length, replace_lower, zip_lower in H2 by lia. cbn [app length Nat.add] in H2.
  apply H2. lia.
Qed.

Lemma mapi_app : forall B C (f : nat -> B -> C) x y i, mapi f i (x ++ y) = mapi f i x ++ mapi f (i + length x) y.
Proof.
  induction x as [|a x IH]; intros y i; cbn [app mapi length]; [rewrite Nat.add_0_r; reflexivity|].
  rewrite IH. do 3 f_equal. lia.
Qed.
Lemma mapi_id : forall B (f : nat -> B -> B) x k, (forall i a, nth_error x i = Some a -> f (k + i) a = a) ->
  mapi f k x = x.
Proof.
  induction x as [|a x IH]; intros k H; [reflexivity|]. cbn [mapi]. f_equal.
  - rewrite <- (Nat.add_0_r k) at 1. apply (H 0). reflexivity.
  - apply IH. intros i b Hb. replace (S k + i) with (k + S i) by lia. apply H. exact Hb.
Qed.

(** What the eigensolver is given: stacked constraints, scaled, and stacked guesses. *)
Theorem C38_augmented_in : forall A d (Uc U0 Vc V0 : list (list A)) rest down,
  given d Uc U0 Vc V0 rest ->
  from_svds down OpAug d (layout Uc U0 Vc V0 rest) =
    Some (0, concat (map (map down) (stack Vc Uc)) ++ concat (stack V0 U0) ++ rest).
Proof.
  intros A d Uc U0 Vc V0 rest down G.
  pose proof (given_sizes _ _ _ _ _ _ _ G) as (L1 & L2 & L3 & L4 & N & S). clear S.
  destruct G as [C1 C2 C3 C4 N1 N3 N2 N4 _]. cbn [from_svds].
  set (n := init d + noc d). set (l := mL d + nL d).
  assert (CU : cols (mL d) (Uc ++ U0)) by (apply cols_app; auto).
  assert (CV : cols (nL d) (Vc ++ V0)) by (apply cols_app; auto).
  assert (LU : length (Uc ++ U0) = n) by (rewrite app_length; unfold n; lia).
  assert (LV : length (Vc ++ V0) = n) by (rewrite app_length; unfold n; lia).
  pose proof (cols_length _ _ _ CU) as KU. pose proof (cols_length _ _ _ CV) as KV.
  rewrite LU in KU. rewrite LV in KV.
  assert (E : layout Uc U0 Vc V0 rest = (concat (Uc ++ U0) ++ concat (Vc ++ V0)) ++ rest).
  { unfold layout. rewrite !concat_app, <- !app_assoc. reflexivity. }
  rewrite E. set (old := concat (Uc ++ U0) ++ concat (Vc ++ V0)).
  assert (Lo : length old = l * n) by (unfold old, l; rewrite app_length; lia).
  rewrite (read_at_eq A (old ++ rest) [] old rest 0 (l * n)) by auto. cbn [bind].
  pose proof (read_whole A (nL d) (Vc ++ V0) (concat (Uc ++ U0)) [] CV) as R1.
  rewrite app_nil_r in R1. fold old in R1. rewrite LV, KU in R1. rewrite R1. cbn [bind].
  pose proof (read_whole A (mL d) (Uc ++ U0) [] (concat (Vc ++ V0)) CU) as R2.
  cbn [app length] in R2. fold old in R2. rewrite LU in R2.
  destruct (write_stack A (nL d) (mL d) (Vc ++ V0) (Uc ++ U0) old rest CV CU) as (m1 & W1 & W2).
  { congruence. }
  { rewrite LV. exact Lo. }
  fold l in W1, W2. rewrite W1. cbn [bind]. rewrite R2. cbn [bind]. rewrite W2. cbn [bind].
  rewrite stack_app by lia. rewrite concat_app.
  assert (Lc : length (concat (stack Vc Uc)) = l * noc d).
  { rewrite (cols_length _ (nL d + mL d)) by (apply stack_cols; auto).
    rewrite stack_length by lia. unfold l. rewrite N3. lia. }
  rewrite <- app_assoc.
  rewrite (read_at_eq A _ [] (concat (stack Vc Uc)) (concat (stack V0 U0) ++ rest) 0 (l * noc d)) by auto.
  cbn [bind].
  rewrite (write_at_eq A _ [] (concat (stack Vc Uc)) (map down (concat (stack Vc Uc)))
    (concat (stack V0 U0) ++ rest) 0) by (auto; apply map_length).
  cbn [bind app]. rewrite concat_map_map. reflexivity.
Qed.

(** ... and what comes back, when undoing the scaling of the constraints is exact and
    the constraints have norm one. *)
Theorem C38_augmented : forall A d (Uc Vc U V : list (list A)) rest down up Av Atu uU uV,
  cols (mL d) Uc -> cols (mL d) U -> cols (nL d) Vc -> cols (nL d) V ->
  length Uc = noc d -> length Vc = noc d -> length U = length V ->
  (forall x, up (down x) = x) ->
  (forall i u, nth_error Uc i = Some u -> uU i u = u) ->
  (forall i v, nth_error Vc i = Some v -> uV i v = v) ->
  (forall i u, length (uU i u) = length u) -> (forall i v, length (uV i v) = length v) ->
  to_svds up Av Atu uU uV OpAug d (length V)
    (concat (map (map down) (stack Vc Uc)) ++ concat (stack V U) ++ rest) =
  Some (layout Uc (mapi uU (noc d) U) Vc (mapi uV (noc d) V) rest).
Proof.
  intros A d Uc Vc U V rest down up Av Atu uU uV C1 C2 C3 C4 N1 N3 N2 Hud HU HV LuU LuV.
  cbn [to_svds]. set (n := length V + noc d). set (l := mL d + nL d).
  assert (CU : cols (mL d) (Uc ++ U)) by (apply cols_app; auto).
  assert (CV : cols (nL d) (Vc ++ V)) by (apply cols_app; auto).
  assert (LU : length (Uc ++ U) = n) by (rewrite app_length; unfold n; lia).
  assert (LV : length (Vc ++ V) = n) by (rewrite app_length; unfold n; lia).
  pose proof (cols_length _ _ _ CU) as KU. pose proof (cols_length _ _ _ CV) as KV.
  rewrite LU in KU. rewrite LV in KV.
  assert (Lc : length (concat (stack Vc Uc)) = l * noc d).
  { rewrite (cols_length _ (nL d + mL d)) by (apply stack_cols; auto).
    rewrite stack_length by lia. unfold l. rewrite N3. lia. }
  rewrite concat_map_map.
  rewrite (read_at_eq A _ [] (map down (concat (stack Vc Uc))) (concat (stack V U) ++ rest) 0 (l * noc d))
    by (auto; rewrite map_length; auto).
  cbn [bind].
  rewrite (write_at_eq A _ [] (map down (concat (stack Vc Uc))) (map up (map down (concat (stack Vc Uc))))
    (concat (stack V U) ++ rest) 0) by (auto; rewrite !map_length; auto).
  cbn [bind app]. rewrite map_map. rewrite (map_ext _ (fun x => x)) by auto. rewrite map_id.
  rewrite app_assoc, <- concat_app, <- stack_app by lia.
  set (old := concat (stack (Vc ++ V) (Uc ++ U))).
  assert (Lo : length old = l * n).
  { unfold old. rewrite (cols_length _ (nL d + mL d)) by (apply stack_cols; auto).
    rewrite stack_length by lia. unfold l. rewrite LV. lia. }
  rewrite (read_at_eq A (old ++ rest) [] old rest 0 (l * n)) by auto. cbn [bind].
  pose proof (read_upper A (nL d) (mL d) (Vc ++ V) (Uc ++ U) [] CV CU) as R1.
  pose proof (read_lower A (nL d) (mL d) (Vc ++ V) (Uc ++ U) [] CV CU) as R2.
  rewrite app_nil_r in R1, R2. fold old l in R1, R2. rewrite LV in R1, R2.
  rewrite R1 by lia. cbn [bind].
  (* the right vectors go after the left ones *)
  assert (E : old = firstn (mL d * n) old ++ skipn (mL d * n) old) by (symmetry; apply firstn_skipn).
  assert (La : length (firstn (mL d * n) old) = mL d * n) by (rewrite firstn_length; nia).
  assert (Lb : length (skipn (mL d * n) old) = nL d * n) by (rewrite skipn_length; nia).
  revert E La Lb. generalize (firstn (mL d * n) old) as a, (skipn (mL d * n) old) as b. intros a b E La Lb.
  rewrite E, <- app_assoc.
  pose proof (write_over A (nL d) (Vc ++ V) a b rest CV) as W1. rewrite LV, La in W1. rewrite W1 by auto.
  cbn [bind]. rewrite <- E. rewrite R2 by lia. cbn [bind].
  pose proof (write_over A (mL d) (Uc ++ U) [] a (concat (Vc ++ V) ++ rest) CU) as W2.
  rewrite LU in W2. cbn [app length] in W2. rewrite W2 by auto. cbn [bind].
  pose proof (read_whole A (mL d) (Uc ++ U) [] (concat (Vc ++ V) ++ rest) CU) as R3.
  rewrite LU in R3. cbn [app length] in R3. rewrite R3. cbn [bind].
  assert (CU' : cols (mL d) (mapi uU 0 (Uc ++ U))).
  { apply mapi_cols. intros i c Hc. rewrite LuU. exact (proj1 (Forall_forall _ _) CU c Hc). }
  assert (CV' : cols (nL d) (mapi uV 0 (Vc ++ V))).
  { apply mapi_cols. intros i c Hc. rewrite LuV. exact (proj1 (Forall_forall _ _) CV c Hc). }
  pose proof (cols_length _ _ _ CU') as KU'. rewrite mapi_length, LU in KU'.
  pose proof (write_over A (mL d) (mapi uU 0 (Uc ++ U)) [] (concat (Uc ++ U)) (concat (Vc ++ V) ++ rest) CU') as W3.
  rewrite mapi_length, LU in W3. cbn [app length] in W3. rewrite W3 by auto. cbn [bind].
  pose proof (read_whole A (nL d) (Vc ++ V) (concat (mapi uU 0 (Uc ++ U))) rest CV) as R4.
  rewrite LV, KU' in R4. rewrite R4. cbn [bind].
  pose proof (write_over A (nL d) (mapi uV 0 (Vc ++ V)) (concat (mapi uU 0 (Uc ++ U))) (concat (Vc ++ V)) rest CV') as W4.
  rewrite mapi_length, LV, KU' in W4. rewrite W4 by auto.
  rewrite !mapi_app, N1, N3, !concat_app. cbn [Nat.add].
  rewrite (mapi_id _ uU Uc 0) by (intros i u Hu; rewrite Nat.add_0_l; auto).
  rewrite (mapi_id _ uV Vc 0) by (intros i u Hu; rewrite Nat.add_0_l; auto).
  unfold layout. rewrite <- !app_assoc. reflexivity.
Qed.

(** ** Both stages: what the second stage starts from is what the first one left. *)
Definition next_stage (d : dims) (k : nat) : dims := Dims (mL d) (nL d) (noc d) k (nsv d).

Theorem C38_hybrid : forall A d (Uc U0 Vc V0 X U V : list (list A)) rest down up Av Atu uU uV
    off mem1 mem2 mem3 off' mem4 mem5,
  given d Uc U0 Vc V0 rest ->
  (forall i v, In v X -> length (Av i v) = mL d) ->
  (forall x, up (down x) = x) ->
  (forall i u, nth_error Uc i = Some u -> uU i u = u) ->
  (forall i v, nth_error Vc i = Some v -> uV i v = v) ->
  (forall i u, length (uU i u) = length u) -> (forall i v, length (uV i v) = length v) ->
  (* first stage, with A'A *)
  from_svds down OpAtA d (layout Uc U0 Vc V0 rest) = Some (off, mem1) ->
  solved off (nL d) (noc d) (Nat.max (init d) (nsv d)) X mem1 mem2 ->
  to_svds up Av Atu uU uV OpAtA d (length X) mem2 = Some mem3 ->
  (* second stage, augmented *)
  from_svds down OpAug (next_stage d (length X)) mem3 = Some (off', mem4) ->
  cols (mL d) U -> cols (nL d) V -> length U = length V ->
  solved off' (mL d + nL d) (noc d) (Nat.max (length X) (nsv d)) (stack V U) mem4 mem5 ->
  (exists rest1, mem4 = concat (map (map down) (stack Vc Uc)) ++ concat (stack X (mapi Av 0 X)) ++ rest1
                 /\ off' = 0) /\
  exists rest2,
    to_svds up Av Atu uU uV OpAug (next_stage d (length X)) (length V) mem5 =
      Some (layout Uc (mapi uU (noc d) U) Vc (mapi uV (noc d) V) rest2) /\
    length (layout Uc (mapi uU (noc d) U) Vc (mapi uV (noc d) V) rest2) = length (layout Uc U0 Vc V0 rest).
Proof.
  intros A d Uc U0 Vc V0 X U V rest down up Av Atu uU uV off mem1 mem2 mem3 off' mem4 mem5
    G HA Hud HU HV LuU LuV F1 S1 T1 F2 CU CV LUV S2.
  destruct (C38_AtA A d Uc U0 Vc V0 X rest down up Av Atu uU uV off mem1 mem2 G F1 S1 HA) as (r1 & T & L1).
  rewrite T1 in T. injection T as ->.
  assert (CX : cols (nL d) X) by apply S1. assert (LX : length X <= Nat.max (init d) (nsv d)) by apply S1.
  assert (CA : cols (mL d) (mapi Av 0 X)) by (apply mapi_cols; auto).
  assert (G2 : given (next_stage d (length X)) Uc (mapi Av 0 X) Vc X r1).
  { destruct G as [C1 C2 C3 C4 N1 N3 N2 N4 Sz]. constructor; cbn [next_stage mL nL noc init nsv]; auto.
    - apply mapi_length.
    - rewrite L1. etransitivity; [|exact Sz]. apply Nat.mul_le_mono_r. lia. }
  rewrite (C38_augmented_in A _ _ _ _ _ _ down G2) in F2. injection F2 as <- <-.
  split; [eauto|].
  destruct S2 as (CS & LS & before & cons & old & scratch & after & E1 & E2 & Lb & Lc & Lo & Ls).
  destruct before; [|cbn [length] in Lb; lia]. cbn [app] in E1, E2.
  assert (LC : length (concat (map (map down) (stack Vc Uc))) = (mL d + nL d) * noc d).
  { rewrite (cols_length _ (nL d + mL d)).
    - rewrite map_length, stack_length by (rewrite (g_nUc _ _ _ _ _ _ G), (g_nVc _ _ _ _ _ _ G); auto).
      rewrite (g_nVc _ _ _ _ _ _ G). lia.
    - apply cols_map. apply stack_cols; apply G. }
  pose proof E1 as E1'. apply app_split in E1; [|congruence]. destruct E1 as [<- E1].
  exists (scratch ++ after).
  pose proof (C38_augmented A (next_stage d (length X)) Uc Vc U V (scratch ++ after) down up Av Atu uU uV) as Q.
  cbn [next_stage mL nL noc] in Q.
  assert (T5 : to_svds up Av Atu uU uV OpAug (next_stage d (length X)) (length V) mem5 =
      Some (layout Uc (mapi uU (noc d) U) Vc (mapi uV (noc d) V) (scratch ++ after))).
  { rewrite E2. apply Q; auto; apply G. }
  split; [exact T5|]. rewrite <- L1.
  pose proof (given_sizes _ _ _ _ _ _ _ G) as (K1 & _ & K3 & _).
  pose proof (cols_length _ _ _ CX) as KX. pose proof (cols_length _ _ _ CA) as KA. rewrite mapi_length in KA.
  pose proof (cols_length _ _ _ CU) as KU. pose proof (cols_length _ _ _ CV) as KV.
  assert (CU' : cols (mL d) (mapi uU (noc d) U)).
  { apply mapi_cols. intros i c Hc. rewrite LuU. exact (proj1 (Forall_forall _ _) CU c Hc). }
  assert (CV' : cols (nL d) (mapi uV (noc d) V)).
  { apply mapi_cols. intros i c Hc. rewrite LuV. exact (proj1 (Forall_forall _ _) CV c Hc). }
  apply cols_length in CU'. apply cols_length in CV'. rewrite mapi_length in CU', CV'.
  assert (KS : length (concat (stack V U)) = (nL d + mL d) * length V).
  { rewrite (cols_length _ (nL d + mL d)) by (apply stack_cols; auto). rewrite stack_length; auto. }
  assert (KS' : length (concat (stack X (mapi Av 0 X))) = (nL d + mL d) * length X).
  { rewrite (cols_length _ (nL d + mL d)) by (apply stack_cols; auto). rewrite stack_length; auto.
    apply mapi_length. }
  assert (E3 : length (concat (stack X (mapi Av 0 X)) ++ r1) = length (old ++ after)) by (f_equal; exact E1).
  unfold layout. rewrite !app_length in *. rewrite CU', CV', KX, KA. rewrite KS, KS' in *.
  rewrite LUV. clear - E3 Ls Lo. nia.
Qed.

(** ** AA' with constraints and different numbers of rows and columns. *)

(** One constraint, one pair wanted, 1 row and 2 columns.  The right vectors are written
    over the right constraint instead of after it. *)
Definition d12 : dims := Dims 1 2 1 0 1.
Definition m12 := layout (A:=nat) [[1]] [] [[2;3]] [] [0;0;0].
Theorem C38_AAt_refuted :
  given d12 [[1]] [] [[2;3]] [] [0;0;0] /\
  exists mem1 mem2,
    from_svds (fun x => x) OpAAt d12 m12 = Some (0, mem1) /\
    solved 0 1 1 1 [[7]] mem1 mem2 /\
    to_svds (fun x => x) (fun _ v => v) (fun _ _ => [8;9]) (fun _ u => u) (fun _ v => v) OpAAt d12 1 mem2
    = Some [1; 7; 2; 8; 9; 0].
Proof.
  split.
  - constructor; cbn; auto; repeat constructor.
  - exists [1;2;2;3;0;0], [1;7;2;3;0;0]. split; [reflexivity|]. split; [|reflexivity].
    split; [repeat constructor|]. split; [cbn; lia|].
    exists [], [1], [2], [], [2;3;0;0]. cbn. auto 10.
Qed.

(** One constraint, one pair wanted, 3 rows and 1 column: the write leaves the array. *)
Definition d31 : dims := Dims 3 1 1 0 1.
Definition m31 := layout (A:=nat) [[1;1;1]] [] [[2]] [] [0;0;0;0].
Theorem C38_AAt_overrun_refuted :
  given d31 [[1;1;1]] [] [[2]] [] [0;0;0;0] /\
  exists mem1 mem2,
    from_svds (fun x => x) OpAAt d31 m31 = Some (0, mem1) /\
    solved 0 3 1 1 [[7;7;7]] mem1 mem2 /\
    to_svds (fun x => x) (fun _ v => v) (fun _ _ => [8]) (fun _ u => u) (fun _ v => v) OpAAt d31 1 mem2 = None.
Proof.
  split.
  - constructor; cbn; auto; repeat constructor.
  - exists [1;1;1;2;0;0;2;0], [1;1;1;7;7;7;2;0]. split; [reflexivity|]. split; [|reflexivity].
    split; [repeat constructor|]. split; [cbn; lia|].
    exists [], [1;1;1], [2;0;0], [], [2;0]. cbn. auto 10.
Qed.

(** ** The hypotheses are met: two rows, one column, one constraint, one guess, two
    pairs wanted, of which the eigensolver finds one. *)
Definition dex : dims := Dims 2 1 1 1 2.
Definition mex := layout (A:=nat) [[1;2]] [[3;4]] [[5]] [[6]] [0;0;0].
Example C38_ex :
  given dex [[1;2]] [[3;4]] [[5]] [[6]] [0;0;0] /\
  exists mem1 mem2 mem3 mem4 mem5,
    from_svds (fun x => x) OpAtA dex mex = Some (6, mem1) /\
    solved 6 1 1 2 [[7]] mem1 mem2 /\
    to_svds (fun x => x) (fun _ _ => [8;9]) (fun _ v => v) (fun _ u => u) (fun _ v => v) OpAtA dex 1 mem2
      = Some mem3 /\ mem3 = layout [[1;2]] [[8;9]] [[5]] [[7]] [5;7;0] /\
    from_svds (fun x => x) OpAug (next_stage dex 1) mem3 = Some (0, mem4) /\
    mem4 = [5;1;2; 7;8;9; 5;7;0] /\
    solved 0 3 1 2 (stack [[10]] [[11;12]]) mem4 mem5 /\
    to_svds (fun x => x) (fun _ _ => [8;9]) (fun _ v => v) (fun _ u => u) (fun _ v => v) OpAug (next_stage dex 1) 1 mem5
      = Some (layout [[1;2]] [[11;12]] [[5]] [[10]] [5;7;0]).
Proof.
  split.
  - constructor; cbn; auto; repeat constructor.
  - exists [1;2;3;4;5;6;5;6;0], [1;2;3;4;5;6;5;7;0], [1;2;8;9;5;7;5;7;0], [5;1;2;7;8;9;5;7;0],
      [5;1;2;10;11;12;5;7;0].
    split; [reflexivity|]. split.
    { split; [repeat constructor|]. split; [cbn; lia|].
      exists [1;2;3;4;5;6], [5], [6;0], [0], []. cbn. auto 10. }
    split; [reflexivity|]. split; [reflexivity|]. split; [reflexivity|]. split; [reflexivity|].
    split; [|reflexivity].
    split; [repeat constructor|]. split; [cbn; lia|].
    exists [], [5;1;2], [7;8;9;5;7;0], [5;7;0], []. cbn. auto 10.
Qed.

Print Assumptions C38_AtA_in.
Print Assumptions C38_AtA.
Print Assumptions C38_AAt_in.
Print Assumptions C38_AAt_partial.
Print Assumptions C38_augmented_in.
Print Assumptions C38_augmented.
Print Assumptions C38_hybrid.
Print Assumptions C38_AAt_refuted.
Print Assumptions C38_AAt_overrun_refuted.
