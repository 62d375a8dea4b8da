(** C69: the MATLAB function primme_svds: constraints, guesses and results. *)
From Coq Require Import Ascii String List Arith ZArith Bool Lia Permutation.
From Verif Require Import Base SvdsModel MatModel MatSvdsModel PropsSvdsOp PropsMat PropsMat2.
Import ListNotations.

Section Guesses.
Context {K : Type}.
Variable apply : bool -> list (list K) -> option (list (list K)).
Notation block := (@MatSvdsModel.block K).

(** Left and right vectors that go together: as many, at least one, of [m] and [n] entries. *)
Definition paired (m n : nat) (l r : block) : Prop :=
  Forall (fun c => length c = m) l /\ Forall (fun c => length c = n) r /\ length l = length r /\ l <> [].

Lemma rows_are_spec : forall k (b : block), rows_are k b = true <-> Forall (fun c => length c = k) b.
Proof.
  intros k b. unfold rows_are. rewrite forallb_forall, Forall_forall.
  split; intros H c I; specialize (H c I); [now apply Nat.eqb_eq|now apply Nat.eqb_eq].
Qed.

Lemma dims_ok_spec : forall m n l r, dims_ok m n l r = true <-> paired m n l r.
Proof.
  intros m n l r. unfold dims_ok, paired. rewrite !andb_true_iff, !rows_are_spec, Nat.eqb_eq.
  destruct l; cbn; split; intros H; decompose [and] H; repeat split; auto; try discriminate; congruence.
Qed.

Lemma checked_ok : forall m n l r, paired m n l r -> checked m n l r = Some (l, r).
Proof. intros m n l r P. unfold checked. rewrite (proj2 (dims_ok_spec m n l r) P). reflexivity. Qed.

Lemma checked_inv : forall m n l r q, checked m n l r = Some q -> q = (l, r) /\ paired m n l r.
Proof.
  intros m n l r q H. unfold checked in H. destruct (dims_ok m n l r) eqn:D; [|discriminate].
  injection H as <-. split; [reflexivity|]. now apply dims_ok_spec.
Qed.

(** *** C69_constraints: the constraints passed to the solver are those given; vectors given for one
    side only are completed by the product with A or A'; whatever is passed goes together. *)
Theorem C69_constraints : forall m n l r,
  (forall q, ortho_blocks apply m n (Some (l, r)) = Some q -> paired m n (fst q) (snd q)) /\
  (paired m n l r -> ortho_blocks apply m n (Some (l, r)) = Some (l, r)) /\
  (forall l', r <> [] -> apply false r = Some l' -> paired m n l' r -> ortho_blocks apply m n (Some ([], r)) = Some (l', r)) /\
  (forall r', l <> [] -> apply true l = Some r' -> paired m n l r' -> ortho_blocks apply m n (Some (l, [])) = Some (l, r')) /\
  ortho_blocks apply m n (Some ([], [])) = None.
Proof.
  intros m n l r. split; [|split; [|split; [|split]]].
  - intros q H. unfold ortho_blocks in H.
    destruct l as [|a l], r as [|b r]; [discriminate| | |].
    + destruct (apply false (b :: r)) as [l'|]; [|discriminate]. cbn [bind] in H.
      apply checked_inv in H. destruct H as [-> P]. exact P.
    + destruct (apply true (a :: l)) as [r'|]; [|discriminate]. cbn [bind] in H.
      apply checked_inv in H. destruct H as [-> P]. exact P.
    + apply checked_inv in H. destruct H as [-> P]. exact P.
  - intros P. unfold ortho_blocks. pose proof P as (_ & _ & L & N).
    destruct l as [|a l]; [congruence|]. destruct r as [|b r]; [discriminate|]. apply checked_ok. exact P.
  - intros l' N A P. destruct r as [|b r]; [congruence|]. cbn [ortho_blocks]. rewrite A. cbn [bind]. now apply checked_ok.
  - intros r' N A P. destruct l as [|a l]; [congruence|]. cbn [ortho_blocks]. rewrite A. cbn [bind]. now apply checked_ok.
  - reflexivity.
Qed.

(** *** C69_guesses_partial: the guesses follow the constraints [(lo, ro)], side by side, and are those
    given, when both sides are given with constraints; when only the right ones are given, the left
    ones are their products; when only the left ones are given without constraints, the right ones
    are.  (The cases left: C69_guesses_both_refuted and C69_guesses_left_refuted.) *)
Theorem C69_guesses_partial : forall m n lo ro u v,
  guess_blocks apply m n (lo, ro) None None = Some (lo, ro) /\
  (ro <> [] -> paired m n u v -> guess_blocks apply m n (lo, ro) (Some u) (Some v) = Some (lo ++ u, ro ++ v)) /\
  (forall l, apply false v = Some l -> paired m n l v ->
     guess_blocks apply m n (lo, ro) None (Some v) = Some (lo ++ l, ro ++ v)) /\
  (forall r, u <> [] -> apply true u = Some r -> paired m n u r ->
     guess_blocks apply m n ([], []) (Some u) None = Some (u, r)).
Proof.
  intros m n lo ro u v. split; [reflexivity|]. split; [|split].
  - intros N P. unfold guess_blocks. cbn [fst snd]. pose proof P as (_ & _ & _ & NU).
    destruct u as [|a u]; [congruence|]. destruct ro as [|b ro]; [congruence|]. cbn [bind fst snd].
    rewrite (checked_ok _ _ _ _ P). reflexivity.
  - intros l A P. cbn [guess_blocks]. rewrite A. cbn [bind fst snd]. rewrite (checked_ok _ _ _ _ P). reflexivity.
  - intros r N A P. destruct u as [|a u]; [congruence|]. cbn [guess_blocks fst snd]. rewrite A. cbn [bind fst snd].
    rewrite (checked_ok _ _ _ _ P). reflexivity.
Qed.

(** *** C69_guesses_paired: whatever is passed to the solver goes together. *)
Theorem C69_guesses_paired : forall m n oc u0 v0 l r,
  all_blocks apply m n oc u0 v0 = Some (l, r) ->
  Forall (fun c => length c = m) l /\ Forall (fun c => length c = n) r /\ length l = length r.
Proof.
  intros m n oc u0 v0 l r H. unfold all_blocks in H.
  destruct (ortho_blocks apply m n oc) as [[lo ro]|] eqn:O; [|discriminate]. cbn [bind] in H.
  assert (P : Forall (fun c => length c = m) lo /\ Forall (fun c => length c = n) ro /\ length lo = length ro).
  { destruct oc as [[a b]|].
    - destruct (C69_constraints m n a b) as (Q & _). destruct (Q _ O) as (Q1 & Q2 & Q3 & _). auto.
    - injection O as <- <-. repeat constructor. }
  destruct P as (P1 & P2 & P3). unfold guess_blocks in H.
  assert (G : forall x : option (block * block),
    (uv <- x ; uv <- checked m n (fst uv) (snd uv) ; Some (fst (lo, ro) ++ fst uv, snd (lo, ro) ++ snd uv)) = Some (l, r) ->
    Forall (fun c => length c = m) l /\ Forall (fun c => length c = n) r /\ length l = length r).
  { intros [[a b]|] E; [|discriminate]. cbn [bind fst snd] in E.
    destruct (checked m n a b) as [q|] eqn:C; [|discriminate]. cbn [bind] in E.
    apply checked_inv in C. destruct C as [-> (C1 & C2 & C3 & _)]. cbn [fst snd] in E. injection E as <- <-.
    rewrite !app_length. split; [apply Forall_app; auto|]. split; [apply Forall_app; auto|]. lia. }
  destruct u0, v0; try exact (G _ H). injection H as <- <-. auto.
Qed.

(** *** C69_guesses_both_refuted: without constraints, right guesses given next to left ones never
    reach the solver: the product of the left ones takes their place. *)
Theorem C69_guesses_both_refuted : forall m n u v q, u <> [] ->
  all_blocks apply m n None (Some u) (Some v) = Some q -> apply true u = Some (snd q) /\ fst q = u.
Proof.
  intros m n u v q N H. unfold all_blocks in H. cbn [ortho_blocks bind guess_blocks fst snd] in H.
  destruct u as [|a u]; [congruence|]. destruct (apply true (a :: u)) as [r|] eqn:A; [|discriminate].
  cbn [bind fst snd] in H. destruct (checked m n (a :: u) r) as [c|] eqn:C; [|discriminate].
  apply checked_inv in C. destruct C as [-> _]. injection H as <-. auto.
Qed.

(** *** C69_guesses_left_refuted: with constraints, left guesses alone are an error. *)
Theorem C69_guesses_left_refuted : forall m n lo ro u, u <> [] ->
  all_blocks apply m n (Some (lo, ro)) (Some u) None = None.
Proof.
  intros m n lo ro u N. unfold all_blocks.
  destruct (ortho_blocks apply m n (Some (lo, ro))) as [[l r]|] eqn:O; [|reflexivity]. cbn [bind].
  destruct (C69_constraints m n lo ro) as (Q & _). destruct (Q _ O) as (_ & _ & L & NL). cbn [fst snd] in *.
  destruct r as [|b r]; [destruct l; [congruence|discriminate]|].
  destruct u as [|a u]; [congruence|]. cbn [guess_blocks snd bind fst].
  unfold checked. destruct (dims_ok m n (a :: u) []) eqn:D; [|reflexivity].
  apply dims_ok_spec in D. destruct D as (_ & _ & E & _). discriminate.
Qed.

(** *** C69_arrays: the array passed to the solver has the documented size, all left vectors first and
    all right ones next. *)
Theorem C69_arrays : forall junk m n numSvals oc ini (l r : block),
  Forall (fun c => length c = m) l -> Forall (fun c => length c = n) r -> length l = oc + ini -> length r = oc + ini ->
  exists mem, start_svecs junk m n numSvals oc ini (l, r) = Some mem /\
    length mem = (oc + Nat.max ini numSvals) * (m + n) /\
    firstn (m * (oc + ini)) mem = concat l /\ firstn (n * (oc + ini)) (skipn (m * (oc + ini)) mem) = concat r.
Proof.
  intros junk m n numSvals oc ini l r FL FR LL LR.
  pose proof (concat_length m l FL) as CL. pose proof (concat_length n r FR) as CR. rewrite LL in CL. rewrite LR in CR.
  unfold start_svecs. set (N := (oc + Nat.max ini numSvals) * (m + n)).
  destruct (0 <? oc + ini) eqn:Z.
  2: { apply Nat.ltb_ge in Z. exists (repeat junk N). split; [reflexivity|]. split; [apply repeat_length|].
       replace (oc + ini) with 0 in * by lia. rewrite !Nat.mul_0_r in *. cbn [firstn].
       destruct (concat l); [|discriminate]. destruct (concat r); [|discriminate]. split; reflexivity. }
  assert (B : m * (oc + ini) + n * (oc + ini) <= N) by (unfold N; nia).
  set (rest := N - (m * (oc + ini) + n * (oc + ini))).
  assert (E : repeat junk N = [] ++ repeat junk (m * (oc + ini)) ++ repeat junk (n * (oc + ini)) ++ repeat junk rest).
  { cbn [app]. rewrite <- !repeat_app. f_equal. unfold rest. lia. }
  cbn [fst snd]. rewrite E.
  pose proof (write_concat K m l [] (repeat junk (m * (oc + ini))) (repeat junk (n * (oc + ini)) ++ repeat junk rest) FL) as W1.
  cbn [app length] in W1 |- *. rewrite W1 by (rewrite repeat_length; congruence). cbn [bind].
  pose proof (write_concat K n r (concat l) (repeat junk (n * (oc + ini))) (repeat junk rest) FR) as W2.
  rewrite CL in W2. rewrite W2 by (rewrite repeat_length; congruence).
  eexists. split; [reflexivity|]. split.
  { rewrite !app_length, CL, CR, repeat_length. unfold rest. lia. }
  rewrite <- CL. rewrite skipn_app, skipn_all, Nat.sub_diag. cbn [skipn app].
  rewrite firstn_app, firstn_all, Nat.sub_diag. cbn [firstn]. rewrite app_nil_r. split; [reflexivity|].
  rewrite <- CR. rewrite firstn_app, firstn_all, Nat.sub_diag. cbn [firstn]. now rewrite app_nil_r.
Qed.

Lemma read_concat_in : forall m (cs : list (list K)) pre post, Forall (fun c => length c = m) cs ->
  read_cols (pre ++ concat cs ++ post) (length pre) m m (length cs) = Some cs.
Proof.
  intros m. induction cs as [|c cs IH]; intros pre post F; [reflexivity|].
  inversion F as [|? ? Fc Fs]; subst. cbn [length read_cols concat]. unfold read_at.
  rewrite (proj2 (Nat.leb_le _ _)) by (rewrite !app_length; lia). cbn [bind].
  rewrite skipn_app, skipn_all, Nat.sub_diag. cbn [skipn app]. rewrite <- app_assoc.
  rewrite firstn_app, firstn_all, Nat.sub_diag. cbn [firstn]. rewrite app_nil_r.
  specialize (IH (pre ++ c) post Fs). rewrite app_length, <- app_assoc in IH. rewrite IH. reflexivity.
Qed.

(** *** C69_vectors: the vectors returned are the left and right singular vectors that the solver
    leaves, as it is documented to: left constraints, left vectors, right constraints, right vectors. *)
Theorem C69_vectors : forall m n (uo u vo v : block) rest,
  Forall (fun c => length c = m) (uo ++ u) -> Forall (fun c => length c = n) (vo ++ v) ->
  length vo = length uo -> length v = length u ->
  svecs_out m n (length uo) (length u) (concat uo ++ concat u ++ concat vo ++ concat v ++ rest) = Some (u, v).
Proof.
  intros m n uo u vo v rest FU FV LO LV. apply Forall_app in FU, FV. destruct FU as [F1 F2], FV as [F3 F4].
  unfold svecs_out. rewrite <- (concat_length m uo F1).
  rewrite (read_concat_in m u (concat uo)) by exact F2. cbn [bind].
  replace (m * (length uo + length u) + n * length uo) with (length (concat uo ++ concat u ++ concat vo)).
  2: { rewrite !app_length, (concat_length m uo F1), (concat_length m u F2), (concat_length n vo F3), LO. lia. }
  rewrite !app_assoc. rewrite <- (app_assoc _ (concat v) rest). rewrite <- LV.
  rewrite (read_concat_in n v) by exact F4. reflexivity.
Qed.
End Guesses.

(** Given both guesses for the identity of order 1, the right one is replaced. *)
Example C69_guesses_case :
  all_blocks (fun _ b => Some b) 1 1 None (Some [[5]]) (Some [[7]]) = Some ([[5]], [[5]]) /\
  all_blocks (fun _ b => Some b) 1 1 (Some ([[1]], [])) (Some [[5]]) (Some [[7]]) = Some ([[1]; [5]], [[1]; [7]]) /\
  start_svecs 0 1 1 3 1 1 ([[1]; [5]], [[1]; [7]]) = Some [1; 5; 1; 7; 0; 0; 0; 0].
Proof. repeat split. Qed.

Section Results.
Context {E V : Type}.
Variable ge : E -> E -> bool.
Hypothesis ge_total : forall a b, ge a b = false -> ge b a = true.
Notation solved := (@svds_solved E V).

(** What the solver leaves: at least as many values and norms as triplets counted, a left and a right
    vector for each. *)
Definition left_by_svds (s : solved) : Prop :=
  v_init s <= length (v_svals s) /\ v_init s <= length (v_norms s) /\
  length (v_left s) = v_init s /\ length (v_right s) = v_init s.

(** Targets whose triplets are documented to be returned in descending order by sorting them. *)
Definition is_sorting (t : string) : bool :=
  String.eqb t "primme_svds_smallest" || String.eqb t "primme_svds_closest_abs".

(** *** C69_returned: when primme_svds returns, every value is next to its left and right vectors, and
    they are the triplets that the solver counts, all of them and no others; in descending order for
    the smallest and for those closest to given numbers, as the solver left them for the largest. *)
Theorem C69_returned : forall target s U D W R w, left_by_svds s ->
  svds_result ge target s = Ok (U, D, W, R, w) ->
  length U = v_init s /\ length D = v_init s /\ length W = v_init s /\ length R = v_init s /\
  Permutation (combine D (combine U W)) (combine (firstn (v_init s) (v_svals s)) (combine (v_left s) (v_right s))) /\
  R = firstn (v_init s) (v_norms s) /\
  (is_sorting target = true -> descending ge D) /\
  (is_sorting target = false -> D = firstn (v_init s) (v_svals s) /\ U = v_left s /\ W = v_right s).
Proof.
  intros target s U D W R w (L1 & L2 & L3 & L4) H. unfold svds_result in H.
  destruct (negb (limit_met (v_ret s)) && negb (v_ret s =? 0)%Z) eqn:ER; [discriminate|].
  fold (is_sorting target) in H. set (sv := firstn (v_init s) (v_svals s)) in *.
  assert (LS : length sv = v_init s) by (unfold sv; rewrite firstn_length; lia).
  assert (LN : length (firstn (v_init s) (v_norms s)) = v_init s) by (rewrite firstn_length; lia).
  destruct (is_sorting target) eqn:T.
  2: { injection H as <- <- <- <- <-. repeat split; auto; discriminate. }
  pose proof (sort_perm ge sv) as P. pose proof (sort_desc ge ge_total sv) as SD.
  set (l := sort_descend ge sv) in *. clearbody l.
  assert (LL : length l = v_init s).
  { rewrite (Permutation_length P), combine_length, seq_length. lia. }
  assert (IN : forall i, In i (map snd l) -> i < v_init s).
  { intros i I. apply in_map_iff in I. destruct I as ([e j] & <- & I). apply (Permutation_in _ P) in I.
    apply in_combine_r in I. apply in_seq in I. cbn [snd]. lia. }
  destruct (v_left s) as [|du lt] eqn:VL.
  { cbn [length] in L3. rewrite <- L3 in *. destruct l; [|discriminate]. cbn in H. injection H as <- <- <- <- <-.
    destruct sv; [|discriminate]. repeat split; auto; discriminate. }
  destruct (v_right s) as [|dv rt] eqn:VR; [cbn [length] in *; lia|].
  rewrite (pick_spec V du) in H by (intros i I; rewrite L3; apply IN; exact I). cbn [rbind] in H.
  rewrite (pick_spec V dv) in H by (intros i I; rewrite L4; apply IN; exact I). cbn [rbind] in H.
  injection H as <- <- <- <- <-. rewrite !map_length.
  repeat (split; [assumption|]). split; [|split; [reflexivity|split; [intros _; exact SD|discriminate]]].
  set (LV := du :: lt) in *. set (RV := dv :: rt) in *.
  assert (C : forall q : list nat, combine (map (fun i => nth i LV du) q) (map (fun i => nth i RV dv) q)
            = map (fun i => nth i (combine LV RV) (du, dv)) q).
  { induction q as [|i q IH]; [reflexivity|]. cbn [map combine]. rewrite IH. f_equal.
    symmetry. apply combine_nth. congruence. }
  rewrite C. rewrite (combine_map_both (du, dv) (combine LV RV) l).
  rewrite (Permutation_map _ P).
  rewrite (combine_nth_seq (du, dv) sv (combine LV RV) 0) by (rewrite combine_length; lia).
  cbn [skipn]. rewrite firstn_all2 by (rewrite combine_length; lia). reflexivity.
Qed.

(** *** C69_raised: codes of the library and of its two stages: an error is raised for every code but
    success and the limit met in the only, first or second stage; for the limit there is a warning. *)
Theorem C69_raised : forall target s, left_by_svds s -> (-300 < v_ret s <= 0)%Z ->
  let limit := (v_ret s = -3 \/ v_ret s = -103 \/ v_ret s = -203)%Z in
  match svds_result ge target s with
  | Ok (_, _, _, _, w) => (w = true /\ limit) \/ (w = false /\ v_ret s = 0%Z)
  | Err => v_ret s <> 0%Z /\ ~ limit
  | Bad => False
  end.
Proof.
  intros target s (L1 & L2 & L3 & L4) RG limit.
  assert (LM : limit_met (v_ret s) = true <-> limit).
  { unfold limit_met, limit. rewrite Z.eqb_eq. pose proof (Z.div_mod (v_ret s) (-100) ltac:(lia)) as DM.
    pose proof (Z.mod_neg_bound (v_ret s) (-100) ltac:(lia)) as B. split.
    - intros M. rewrite M in DM. lia.
    - intros [Q|[Q|Q]]; rewrite Q; reflexivity. }
  unfold svds_result.
  destruct (limit_met (v_ret s)) eqn:M; cbn [negb andb].
  - destruct (_ || _); [|left; split; [reflexivity|apply LM; reflexivity]].
    set (sv := firstn (v_init s) (v_svals s)).
    assert (LS : length sv = v_init s) by (unfold sv; rewrite firstn_length; lia).
    pose proof (sort_perm ge sv) as P.
    assert (IN : forall i, In i (map snd (sort_descend ge sv)) -> i < v_init s).
    { intros i I. apply in_map_iff in I. destruct I as ([e j] & <- & I). apply (Permutation_in _ P) in I.
      apply in_combine_r in I. apply in_seq in I. cbn [snd]. lia. }
    destruct (v_left s) as [|du lt] eqn:VL.
    { cbn [length] in L3. assert (sort_descend ge sv = []) as ->.
      { destruct sv; [reflexivity|cbn [length] in LS; lia]. } cbn. left. split; [reflexivity|apply LM; reflexivity]. }
    destruct (v_right s) as [|dv rt] eqn:VR; [cbn [length] in *; lia|].
    rewrite (pick_spec V du) by (intros i I; rewrite L3; apply IN; exact I). cbn [rbind].
    rewrite (pick_spec V dv) by (intros i I; rewrite L4; apply IN; exact I). cbn [rbind].
    left. split; [reflexivity|apply LM; reflexivity].
  - destruct (v_ret s =? 0)%Z eqn:Z0; cbn [negb].
    + apply Z.eqb_eq in Z0. destruct (_ || _); [|right; split; [reflexivity|exact Z0]].
      set (sv := firstn (v_init s) (v_svals s)).
      assert (LS : length sv = v_init s) by (unfold sv; rewrite firstn_length; lia).
      pose proof (sort_perm ge sv) as P.
      assert (IN : forall i, In i (map snd (sort_descend ge sv)) -> i < v_init s).
      { intros i I. apply in_map_iff in I. destruct I as ([e j] & <- & I). apply (Permutation_in _ P) in I.
        apply in_combine_r in I. apply in_seq in I. cbn [snd]. lia. }
      destruct (v_left s) as [|du lt] eqn:VL.
      { cbn [length] in L3. assert (sort_descend ge sv = []) as ->.
        { destruct sv; [reflexivity|cbn [length] in LS; lia]. } cbn. right. split; [reflexivity|exact Z0]. }
      destruct (v_right s) as [|dv rt] eqn:VR; [cbn [length] in *; lia|].
      rewrite (pick_spec V du) by (intros i I; rewrite L3; apply IN; exact I). cbn [rbind].
      rewrite (pick_spec V dv) by (intros i I; rewrite L4; apply IN; exact I). cbn [rbind].
      right. split; [reflexivity|exact Z0].
    + apply Z.eqb_neq in Z0. split; [exact Z0|]. intros Q. apply LM in Q. discriminate.
Qed.

(** *** C69_norms_partial: the norms returned are those of the triplets next to them when these are as
    the solver left them. *)
Theorem C69_norms_partial : forall target s U D W R w, left_by_svds s ->
  svds_result ge target s = Ok (U, D, W, R, w) -> is_sorting target = false ->
  combine D R = combine (firstn (v_init s) (v_svals s)) (firstn (v_init s) (v_norms s)).
Proof.
  intros target s U D W R w L H T.
  destruct (C69_returned target s U D W R w L H) as (_ & _ & _ & _ & _ & -> & _ & Q).
  destruct (Q T) as (-> & _). reflexivity.
Qed.
End Results.

(** *** C69_norms_refuted: for the smallest singular values the triplets are put in descending order
    and their norms are not: each value is returned with the norm of another. *)
Theorem C69_norms_refuted : exists s : @svds_solved Z Z,
  left_by_svds s /\ v_ret s = 0%Z /\
  svds_result Z.geb "primme_svds_smallest" s = Ok ([20; 10]%Z, [2; 1]%Z, [21; 11]%Z, [100; 200]%Z, false) /\
  v_svals s = [1; 2]%Z /\ v_norms s = [100; 200]%Z.
Proof.
  exists (SvdsSolved 0%Z [1; 2]%Z [100; 200]%Z [10; 20]%Z [11; 21]%Z 2). unfold left_by_svds. cbn. repeat split; lia.
Qed.

Example C69_returned_case :
  let s := SvdsSolved (-103)%Z [1; 2; 0]%Z [100; 200; 0]%Z [10; 20]%Z [11; 21]%Z 2 in
  left_by_svds s /\ svds_result Z.geb "primme_svds_largest" s = Ok ([10; 20]%Z, [1; 2]%Z, [11; 21]%Z, [100; 200]%Z, true).
Proof. unfold left_by_svds. cbn. repeat split; lia. Qed.
