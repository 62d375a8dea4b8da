(** Proofs about RestartModel.v and SelectModel.v: the reordering before a
    restart, map_vecs, and the sizes. *)
From Verif Require Import Base Values SelectModel RestartModel ScatterProofs RestartProofs RestartProofs2.
From Coq Require Import List Arith ZArith Lia Bool Permutation Sorted.
Import ListNotations.

Lemma NoDup_snoc : forall (p : list nat) v, NoDup p -> ~ In v p -> NoDup (p ++ [v]).
Proof.
  intros p v HN HI. apply (Permutation_NoDup (l := v :: p)); [|now constructor].
  apply Permutation_cons_append.
Qed.

(* ------------------------------------------------------------------ *)
Section Front.
Variables (blk : list nat) (nc : nat).

Definition inblk (i : nat) : bool := existsb (Nat.eqb i) blk.

Fixpoint front_cls (fl : list flag) (i m : nat) : list nat :=
  match fl with
  | [] => []
  | f :: fs =>
      (if (flagged f && (m <? nc)) || inblk i then 0 else 1)
      :: front_cls fs (S i) (if flagged f then S m else m)
  end.

Lemma front_cls_len : forall fl i m, length (front_cls fl i m) = length fl.
Proof. induction fl as [|f fs IH]; intros; cbn [front_cls length]; auto. Qed.

Lemma front_cls_lt : forall fl i m, Forall (fun c => c < 2) (front_cls fl i m).
Proof.
  induction fl as [|f fs IH]; intros; cbn [front_cls]; auto.
  destruct (_ || inblk i); constructor; auto; lia.
Qed.

Lemma front_scatter : forall flags iev bs cnt i k l m b iw,
  blk = firstn bs iev -> i + cnt <= length flags ->
  b 0 = k -> b 1 = nc + bs + l ->
  front_loop flags iev bs nc cnt i k l m iw =
  scatter (front_cls (firstn cnt (skipn i flags)) i m) i b iw.
Proof.
  induction cnt as [|c IH]; intros i k l m b iw HB HL B0 B1; [reflexivity|].
  cbn [front_loop]. destruct (get_some _ flags i) as [f Hf]; [lia|]. rewrite Hf. cbn [bind].
  rewrite (window_step _ _ _ _ _ Hf). cbn [front_cls scatter].
  rewrite <- HB. fold (inblk i). fold (flagged f).
  destruct ((flagged f && (m <? nc)) || inblk i).
  - rewrite B0. destruct (put iw k i) as [iw'|]; [|reflexivity]. cbn [bind].
    apply IH; [exact HB|lia|unfold bump; cbn [Nat.eqb]; lia|unfold bump; cbn [Nat.eqb]; lia].
  - rewrite B1. destruct (put iw (nc + bs + l) i) as [iw'|]; [|reflexivity]. cbn [bind].
    apply IH; [exact HB|lia|unfold bump; cbn [Nat.eqb]; lia|unfold bump; cbn [Nat.eqb]; lia].
Qed.

Lemma front_len : forall fl i m o,
  (forall x f, nth_error fl x = Some f -> inblk (i + x) = true -> flagged f = false) ->
  length (where_is 0 (front_cls fl i m) o)
  = Nat.min (nc - m) (nflag fl) + length (filter inblk (seq i (length fl))).
Proof.
  induction fl as [|f fs IH]; intros i m o HU; [cbn; lia|].
  assert (HU' : forall x g, nth_error fs x = Some g -> inblk (S i + x) = true -> flagged g = false).
  { intros x g H1 H2. apply (HU (S x) g); [exact H1|]. now rewrite <- plus_n_Sm. }
  pose proof (HU 0 f eq_refl) as H0. rewrite Nat.add_0_r in H0.
  cbn [front_cls length seq filter]. rewrite nflag_cons. unfold flagged in *.
  specialize (IH (S i)).
  destruct (is_unconverged f) eqn:Ef; cbn [negb andb orb].
  - destruct (inblk i); cbn [where_is Nat.eqb length]; rewrite IH by auto; lia.
  - assert (Hn : inblk i = false) by (destruct (inblk i); auto; discriminate H0; auto).
    rewrite Hn, orb_false_r.
    destruct (Nat.ltb_spec m nc); cbn [where_is Nat.eqb length]; rewrite IH by auto; lia.
Qed.

Lemma inblk_in : forall i, inblk i = true <-> In i blk.
Proof.
  intro i. unfold inblk. rewrite existsb_exists. split.
  - intros (x & H1 & H2). apply Nat.eqb_eq in H2. now subst.
  - intro H. exists i. split; [auto|apply Nat.eqb_refl].
Qed.

Lemma blk_len : forall n, NoDup blk -> (forall x, In x blk -> x < n) ->
  length (filter inblk (seq 0 n)) = length blk.
Proof.
  intros n HN HB. apply Permutation_length. apply NoDup_Permutation.
  - apply NoDup_filter, seq_NoDup.
  - exact HN.
  - intro x. rewrite filter_In, in_seq, inblk_in. split; [tauto|]. intro H. specialize (HB _ H). split; [lia|auto].
Qed.

Lemma front_is : forall fl i m x, nth_error (front_cls fl i m) x = Some 0 ->
  inblk (i + x) = true \/ exists f, nth_error fl x = Some f /\ flagged f = true.
Proof.
  induction fl as [|f fs IH]; intros i m x H; [destruct x; discriminate|].
  destruct x as [|x].
  - cbn [front_cls nth_error] in H. rewrite Nat.add_0_r. destruct (flagged f) eqn:E; [right; exists f; auto|].
    cbn [andb orb] in H. left. destruct (inblk i); [auto|discriminate].
  - cbn [front_cls nth_error] in H. rewrite <- plus_n_Sm. destruct (IH _ _ _ H) as [G|G]; auto.
Qed.

Lemma front_has : forall fl i m x, x < length fl -> inblk (i + x) = true ->
  nth_error (front_cls fl i m) x = Some 0.
Proof.
  induction fl as [|f fs IH]; intros i m x H HB; [cbn in H; lia|].
  destruct x as [|x].
  - cbn [front_cls nth_error]. rewrite Nat.add_0_r in HB. rewrite HB, orb_true_r. reflexivity.
  - cbn [front_cls nth_error]. apply IH; [cbn in H; lia|]. now rewrite <- plus_n_Sm in HB.
Qed.

End Front.

Lemma front_shape : forall flags iev bs nc n iw,
  length flags = n -> n <= length iw -> bs <= length iev ->
  NoDup (firstn bs iev) ->
  (forall x, In x (firstn bs iev) -> nth_error flags x = Some UNCONVERGED) ->
  nc <= nflag flags ->
  exists front rest,
    front_perm flags iev bs nc n iw = Some (front ++ rest ++ skipn n iw) /\
    length front = nc + bs /\ is_perm (front ++ rest) n /\
    StronglySorted lt front /\ StronglySorted lt rest /\
    (forall x, In x (firstn bs iev) -> In x front) /\
    (forall x, In x front -> In x (firstn bs iev) \/
       exists f, nth_error flags x = Some f /\ flagged f = true).
Proof.
  intros flags iev bs nc n iw HL HW HB HN HU HC.
  set (blk := firstn bs iev) in *.
  assert (Lb : length blk = bs) by (unfold blk; rewrite firstn_length; lia).
  set (cs := front_cls blk nc flags 0 0).
  assert (Lc : length cs = n) by (unfold cs; now rewrite front_cls_len).
  assert (HF : Forall (fun c => c < 2) cs) by apply front_cls_lt.
  assert (L0 : length (where_is 0 cs 0) = nc + bs).
  { unfold cs. rewrite front_len.
    - rewrite HL, blk_len; [lia|exact HN|].
      intros x Hx. rewrite <- HL. apply nth_error_Some. rewrite (HU x Hx). discriminate.
    - intros x f Hx Hb. apply inblk_in in Hb. cbn in Hb. rewrite (HU x Hb) in Hx. now injection Hx as <-. }
  exists (where_is 0 cs 0), (where_is 1 cs 0).
  set (b := fun c => match c with 0 => 0 | _ => nc + bs end).
  destruct (scatter_two cs b iw HF) as (iw' & E1 & E2); [reflexivity|now rewrite L0|lia|].
  split; [|split; [exact L0|split]].
  - unfold front_perm. rewrite (front_scatter blk nc flags iev bs n 0 0 0 0 b iw); [|reflexivity|lia|reflexivity|unfold b; lia].
    change (skipn 0 flags) with flags. rewrite firstn_all2 by lia. fold cs. now rewrite E1, E2, Lc.
  - pose proof (where_is_perm2 cs 0 HF) as HP. now rewrite Lc in HP.
  - split; [apply where_is_sorted|]. split; [apply where_is_sorted|]. split.
    + intros x Hx. apply where_is_in. rewrite Nat.sub_0_r. split; [lia|]. unfold cs.
      apply front_has.
      * apply nth_error_Some. rewrite (HU x Hx). discriminate.
      * now apply inblk_in.
    + intros x Hx. apply where_is_in in Hx. rewrite Nat.sub_0_r in Hx. destruct Hx as [_ Hx].
      destruct (front_is _ _ _ _ _ _ Hx) as [G|G]; [left; now apply inblk_in in G|right; exact G].
Qed.

Lemma recount_nflag : forall fl i ne nl c t, recount fl i ne nl c t <= c + nflag fl.
Proof.
  induction fl as [|f fs IH]; intros i ne nl c t; [cbn; lia|]. cbn [recount]. rewrite nflag_cons.
  destruct (is_unconverged f); cbn [negb andb].
  - specialize (IH (S i) ne nl c t). lia.
  - destruct (_ && _); [specialize (IH (S i) ne nl (S c) t)|specialize (IH (S i) ne nl c t)]; lia.
Qed.

(* ------------------------------------------------------------------ *)
Section Map.
Context {R : Type} (ip : nat -> nat -> R) (nrm : nat -> R)
        (gt : R -> option R -> R -> bool) (quot : R -> R -> R).

Definition used (p : list nat) (j : nat) : bool := existsb (Nat.eqb j) p.

Lemma used_in : forall p j, used p j = true <-> In j p.
Proof. exact inblk_in. Qed.

Lemma map_search_range : forall p i cnt j ipmax jmax r,
  map_search ip nrm gt quot p i cnt j ipmax jmax = Some r ->
  Some r = jmax \/ (j <= r < j + cnt /\ ~ In r p).
Proof.
  induction cnt as [|c IH]; intros j ipmax jmax r H; cbn [map_search] in H; [auto|].
  fold (used p j) in H. destruct (gt (ip i j) ipmax (nrm j) && negb (used p j)) eqn:E.
  - apply IH in H. destruct H as [H|H]; [injection H as ->|right; split; [lia|tauto]].
    right. split; [lia|]. rewrite <- used_in. apply andb_true_iff in E. destruct E as [_ E].
    destruct (used p j); [discriminate|]. discriminate.
  - apply IH in H. destruct H as [H|H]; [auto|right; split; [lia|tauto]].
Qed.

Lemma map_search_keeps : forall p i cnt j ipmax r,
  exists r', map_search ip nrm gt quot p i cnt j ipmax (Some r) = Some r'.
Proof.
  induction cnt as [|c IH]; intros j ipmax r; cbn [map_search]; [eauto|].
  destruct (gt (ip i j) ipmax (nrm j) && _); apply IH.
Qed.

Lemma map_search_finds : forall p i cnt j q, j <= q < j + cnt -> ~ In q p ->
  (forall q, j <= q < j + cnt -> gt (ip i q) None (nrm q) = true) ->
  exists r, map_search ip nrm gt quot p i cnt j None None = Some r.
Proof.
  induction cnt as [|c IH]; intros j q Hq Hu HG; [lia|]. cbn [map_search].
  rewrite (HG j) by lia. cbn [andb]. fold (used p j).
  destruct (used p j) eqn:E; cbn [negb].
  - apply (IH (S j) q); [|exact Hu|intros; apply HG; lia].
    destruct (Nat.eq_dec j q) as [->|]; [|lia]. apply used_in in E. contradiction.
  - apply map_search_keeps.
Qed.

Lemma map_search_none : forall p i cnt j ipmax,
  (forall q, j <= q < j + cnt -> In q p) ->
  map_search ip nrm gt quot p i cnt j ipmax None = None.
Proof.
  induction cnt as [|c IH]; intros j ipmax H; cbn [map_search]; [reflexivity|]. fold (used p j).
  assert (E : used p j = true) by (apply used_in; apply H; lia).
  rewrite E, andb_false_r. apply IH. intros; apply H; lia.
Qed.

Lemma free_or_full : forall (p : list nat) n,
  (exists q, q < n /\ ~ In q p) \/ (forall q, q < n -> In q p).
Proof.
  induction n as [|n [(q & H1 & H2)|H]]; [right; intros; lia|left; exists q; split; auto|].
  destruct (in_dec Nat.eq_dec n p) as [I|I]; [|left; exists n; auto].
  right. intros q Hq. destruct (Nat.eq_dec q n) as [->|]; [auto|]. apply H. lia.
Qed.

Lemma map_vecs_perm : forall nV cnt i p,
  (forall a q, i <= a < i + cnt -> q < nV -> gt (ip a q) None (nrm q) = true) ->
  length p = i -> NoDup p -> (forall x, In x p -> x < Nat.max i nV) ->
  (nV <= i -> forall x, x < i -> In x p) -> (i <= nV -> forall x, In x p -> x < nV) ->
  nV <= i + cnt ->
  exists s, map_vecs ip nrm gt quot nV cnt i p = p ++ s /\ is_perm (p ++ s) (i + cnt) /\
   (i <= nV -> is_perm (firstn nV (p ++ s)) nV).
Proof.
  induction cnt as [|c IH]; intros i p HG HL HN HB HF HS HV.
  - exists []. rewrite !app_nil_r. rewrite Nat.add_0_r in *.
    assert (HP : is_perm p i).
    { apply is_perm_intro; auto. intros k Hk. specialize (HB _ Hk). lia. }
    split; [cbn; reflexivity|]. split; [exact HP|].
    intro H. assert (nV = i) by lia. subst nV. rewrite firstn_all2 by lia. exact HP.
  - cbn [map_vecs].
    set (v := match map_search ip nrm gt quot p i nV 0 None None with Some j => j | None => i end).
    assert (Hv : ~ In v p /\ (i < nV -> v < nV) /\ (nV <= i -> v = i)).
    { destruct (free_or_full p nV) as [(q & Q1 & Q2)|Full].
      - assert (Hi : i < nV).
        { destruct (lt_dec i nV); [auto|]. exfalso. apply Q2, HF; lia. }
        destruct (map_search_finds p i nV 0 q) as [r Hr]; [lia|exact Q2|intros; apply HG; lia|].
        unfold v. rewrite Hr. apply map_search_range in Hr. destruct Hr as [Hr|Hr]; [discriminate|].
        repeat split; [tauto|lia|lia].
      - assert (Hi : nV <= i).
        { rewrite <- HL, <- (seq_length nV 0). apply NoDup_incl_length; [apply seq_NoDup|].
          intros x Hx. apply in_seq in Hx. apply Full. lia. }
        unfold v. rewrite map_search_none by (intros; apply Full; lia).
        repeat split; [|lia]. intro I. specialize (HB _ I). lia. }
    destruct Hv as (V1 & V2 & V3).
    destruct (IH (S i) (p ++ [v])) as (s & E & P & F).
    + intros; apply HG; lia.
    + rewrite app_length. cbn. lia.
    + apply NoDup_snoc; auto.
    + intros x Hx. apply in_app_or in Hx. destruct Hx as [Hx|[<-|[]]]; [specialize (HB _ Hx); lia|].
      destruct (lt_dec i nV); [specialize (V2 l); lia|rewrite V3; lia].
    + intros H x Hx. destruct (le_lt_dec nV i) as [G|G].
      * apply in_or_app. destruct (Nat.eq_dec x i) as [->|]; [right; left; apply V3; lia|left; apply HF; lia].
      * assert (nV = S i) by lia. subst nV.
        assert (HP : is_perm (p ++ [v]) (S i)).
        { apply is_perm_intro.
          - rewrite app_length; cbn; lia.
          - apply NoDup_snoc; auto.
          - intros k Hk. apply in_app_or in Hk. destruct Hk as [Hk|[<-|[]]]; [apply HS; [lia|auto]|apply V2; lia]. }
        now apply (is_perm_in _ _ x HP).
    + intros H x Hx. apply in_app_or in Hx. destruct Hx as [Hx|[<-|[]]]; [apply HS; [lia|auto]|apply V2; lia].
    + lia.
    + exists (v :: s). rewrite E, <- app_assoc. cbn [app] in *. rewrite <- app_assoc in P, F. cbn [app] in P, F.
      split; [reflexivity|]. rewrite <- plus_n_Sm. split; [exact P|].
      intro H. destruct (le_lt_dec (S i) nV) as [G|G]; [auto|].
      assert (nV = i) by lia. subst nV. rewrite firstn_app, HL, Nat.sub_diag. cbn [firstn].
      rewrite app_nil_r, firstn_all2 by lia.
      apply is_perm_intro; auto.
Qed.
End Map.
