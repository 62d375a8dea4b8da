(** Property theorems: in-place permutations (C09), compact copies (C10),
    parallel reduction of projections (C29). *)
From Verif Require Import Base PermModel PermProofs TriModel TriProofs.
From Coq Require Import List Arith Lia Permutation.
Import ListNotations.

(** C09.  Reordering [n] vectors in place by any permutation of 0..n-1
    terminates and puts vector number perm[i] at position i; whatever follows
    the [n] vectors is untouched. *)
Theorem C09_permute_vecs_in_place :
  forall (A : Type) (vecs rest : list A) (perm : list nat),
  Permutation perm (seq 0 (length vecs)) ->
  exists out, permute_vecs (vecs ++ rest) (length vecs) perm = Some (out ++ rest) /\
    length out = length vecs /\
    forall i k, nth_error perm i = Some k -> nth_error out i = nth_error vecs k.
Proof.
  intros A vecs rest perm HP.
  destruct vecs as [|d vs] eqn:EV.
  - exists []. simpl in *. apply Permutation_sym, Permutation_nil in HP. subst.
    repeat split; auto. intros [|i] k H; discriminate.
  - rewrite <- EV in *.
    assert (G : gathered vecs perm (gather d vecs perm)).
    { apply gathered_gather. intros k Hk. eapply is_perm_in; eauto. }
    exists (gather d vecs perm). split; [apply permute_vecs_gathers; auto|].
    destruct G as [L G]. split.
    + rewrite L. eapply is_perm_length; eauto.
    + intros i k Hi. apply G. auto.
Qed.

(** Nothing is lost or duplicated. *)
Theorem C09_permute_vecs_rearranges :
  forall (A : Type) (vecs : list A) (perm : list nat),
  Permutation perm (seq 0 (length vecs)) ->
  exists out, permute_vecs vecs (length vecs) perm = Some out /\ Permutation out vecs.
Proof.
  intros A vecs perm HP.
  destruct vecs as [|d vs] eqn:EV.
  - exists []. simpl in *. apply Permutation_sym, Permutation_nil in HP. subst. auto.
  - rewrite <- EV in *. exists (gather d vecs perm).
    split; [|apply gather_Permutation; auto].
    rewrite <- (app_nil_r vecs) at 1. rewrite <- (app_nil_r (gather d vecs perm)).
    apply permute_vecs_gathers; auto.
    apply gathered_gather. intros k Hk. eapply is_perm_in; eauto.
Qed.

Example C09_nonvacuous :
  Permutation [2;0;1;4;3] (seq 0 5) /\
  permute_vecs [10;11;12;13;14;99] 5 [2;0;1;4;3] = Some [12;10;11;14;13;99].
Proof.
  split; [|vm_compute; reflexivity].
  apply (is_perm_intro [2;0;1;4;3] 5); auto.
  - repeat constructor; simpl; intuition discriminate.
  - simpl. intuition lia.
Qed.

(** Compacting selected columns into another array copies exactly those. *)
Theorem C09_compact_vecs_copy :
  forall (A : Type) (vecs work : list A) (perm : list nat),
  (forall k, In k perm -> k < length vecs) -> length perm <= length work ->
  exists out, compact_copy vecs perm 0 work = Some out /\ length out = length work /\
    (forall i k, nth_error perm i = Some k -> nth_error out i = nth_error vecs k) /\
    (forall i, length perm <= i -> nth_error out i = nth_error work i).
Proof.
  intros A vecs work perm H1 H2.
  destruct (compact_copy_gathers perm vecs work 0 H1 H2) as [w [E [L [G F]]]].
  exists w. repeat (split; auto).
Qed.

(** Whether or not the copy is avoided, the columns returned are the selected ones,
    and the work array is touched only when they are copied, in its first columns. *)
Lemma consecutive_nth : forall perm k, consecutive perm = true -> nth_error perm 0 = Some k ->
  forall i j, nth_error perm i = Some j -> j = k + i.
Proof.
  induction perm as [|a perm IH]; intros k HC H0 i j Hj; [discriminate|].
  inversion H0; subst. destruct i as [|i]; [inversion Hj; lia|]. cbn [nth_error] in Hj.
  destruct perm as [|b t]; [destruct i; discriminate|].
  cbn [consecutive] in HC. apply Bool.andb_true_iff in HC. destruct HC as [HE HC]. apply Nat.eqb_eq in HE. subst b.
  rewrite (IH (S k) HC eq_refl i j Hj). lia.
Qed.
Theorem C09_compact_vecs :
  forall (A : Type) (vecs work : list A) (perm : list nat) (avoid : bool),
  (forall k, In k perm -> k < length vecs) -> length perm <= length work ->
  avoid = false \/ perm <> [] ->
  exists out work', compact_vecs vecs perm work avoid = Some (out, work') /\
    (forall i k, nth_error perm i = Some k -> nth_error out i = nth_error vecs k) /\
    (forall i, length perm <= i -> nth_error work' i = nth_error work i) /\
    (avoid = true -> (forall i k, nth_error perm i = Some k -> k = hd 0 perm + i) -> work' = work).
Proof.
  intros A vecs work perm avoid H1 H2 H3. unfold compact_vecs.
  assert (HC : forall p, consecutive p = false -> exists i k, nth_error p i = Some k /\ k <> hd 0 p + i).
  { induction p as [|a p IH]; [discriminate|]. destruct p as [|b t]; [discriminate|].
    cbn [consecutive]. destruct (Nat.eqb_spec (S a) b) as [<-|N]; cbn [andb]; intros E.
    - destruct (IH E) as (i & k & Hk & Hn). exists (S i), k. split; auto. cbn [hd] in *. lia.
    - exists 1, b. split; auto. cbn [hd]. lia. }
  destruct (C09_compact_vecs_copy A vecs work perm H1 H2) as (w & E & L & G & F).
  destruct avoid.
  - unfold compact_avoid. destruct (consecutive perm) eqn:EC.
    + destruct perm as [|k t]; [intuition congruence|]. cbn [get nth_error bind].
      exists (skipn k vecs), work. split; [reflexivity|]. split; [|split; auto].
      intros i j Hj. rewrite (consecutive_nth _ k EC eq_refl i j Hj). clear. revert k.
      induction vecs as [|v vecs IH]; intros [|k]; auto; [destruct i; reflexivity|apply IH].
    + cbn [bind]. rewrite E. cbn [bind]. exists w, w. split; [reflexivity|]. split; auto. split; auto.
      intros _ Hall. destruct (HC perm EC) as (i & k & Hk & Hn). destruct Hn. auto.
  - cbn [bind]. rewrite E. cbn [bind]. exists w, w. split; [reflexivity|]. split; auto. split; auto. discriminate.
Qed.
Example C09_compact_vecs_nonvacuous :
  compact_vecs [5;6;7;8] [1;2] [0;0;9] true = Some ([6;7;8], [0;0;9]) /\
  compact_vecs [5;6;7;8] [1;3] [0;0;9] true = Some ([6;8;9], [6;8;9]) /\
  compact_vecs [5;6;7;8] [1;2] [0;0;9] false = Some ([6;7;9], [6;7;9]).
Proof. repeat split. Qed.

(** Compacting inside the same array is right for increasing selections. *)
Theorem C09_compact_vecs_same_buffer :
  forall (A : Type) (vecs : list A) (perm : list nat),
  (forall i j a b, i < j -> nth_error perm i = Some a -> nth_error perm j = Some b -> a < b) ->
  (forall k, In k perm -> k < length vecs) ->
  exists out, compact_inplace vecs perm 0 = Some out /\ length out = length vecs /\
    (forall i k, nth_error perm i = Some k -> nth_error out i = nth_error vecs k) /\
    (forall i, length perm <= i -> nth_error out i = nth_error vecs i).
Proof.
  intros A vecs perm HI HR.
  assert (HM : forall j k, nth_error perm j = Some k -> j <= k).
  { induction j as [|j IH]; intros k Hk; [lia|].
    destruct (nth_error perm j) as [p|] eqn:E.
    - pose proof (IH _ eq_refl). pose proof (HI j (S j) p k ltac:(lia) E Hk). lia.
    - apply nth_error_None in E. assert (S j < length perm) by (apply nth_error_Some; congruence). lia. }
  destruct (compact_inplace_gathers perm vecs vecs 0) as [w [E [L [G [F _]]]]]; auto.
  - intros j k Hk. split; [apply HM; auto|]. apply HR. eapply nth_error_In; eauto.
  - intros j k l Hk Hl. destruct (nth_error perm l) as [p|] eqn:E.
    + pose proof (HM _ _ E). pose proof (HI l j p k Hl E Hk). simpl. lia.
    + apply nth_error_None in E. assert (j < length perm) by (apply nth_error_Some; congruence). lia.
  - exists w. repeat (split; auto).
Qed.

(** It is wrong for some non-increasing selections, which the routine accepts. *)
Theorem C09_compact_vecs_same_buffer_unordered_refuted :
  exists (vecs : list nat) (perm : list nat) out,
    NoDup perm /\ (forall k, In k perm -> k < length vecs) /\
    compact_inplace vecs perm 0 = Some out /\
    exists i k, nth_error perm i = Some k /\ nth_error out i <> nth_error vecs k.
Proof.
  exists [7;8], [1;0], [8;8]. split; [repeat constructor; simpl; intuition discriminate|].
  split; [simpl; intuition lia|]. split; [reflexivity|].
  exists 1, 0. split; [reflexivity|]. simpl. congruence.
Qed.

(** C10.  A shape with more columns than rows is refused by both. *)
Theorem C10_shape_refused : forall (A : Type) (x y : list A) m n ld i0,
  m < n -> pack x m n ld i0 y = None /\ unpack x m n i0 y ld = None.
Proof. intros A x y m n ld i0 H. unfold pack, unpack. rewrite (proj2 (Nat.ltb_lt m n) H). auto. Qed.

(** C10.  Packing then unpacking the upper trapezoid (rows 0..c+i0 of
    column c) restores every packed entry, uses exactly
    n(n+1)/2 + i0*n cells of the buffer and leaves every other cell of the
    buffer and of the destination matrix untouched. *)
Theorem C10_pack_unpack_roundtrip :
  forall (A : Type) (x buf y : list A) m n ldx ldy i0,
  n <= m -> n + i0 <= ldy ->
  (forall c, c < n -> c * ldx + (c + i0) < length x) ->
  (forall c, c < n -> c * ldy + (c + i0) < length y) ->
  (n + 1) * n / 2 + i0 * n <= length buf ->
  exists buf' y',
    pack x m n ldx i0 buf = Some (buf', (n + 1) * n / 2 + i0 * n) /\
    unpack (firstn ((n + 1) * n / 2 + i0 * n) buf') m n i0 y ldy = Some y' /\
    length buf' = length buf /\ length y' = length y /\
    (forall p, (n + 1) * n / 2 + i0 * n <= p -> nth_error buf' p = nth_error buf p) /\
    (forall c j, c < n -> j <= c + i0 ->
       nth_error y' (c * ldy + j) = nth_error x (c * ldx + j)) /\
    (forall p, (forall c j, c < n -> j <= c + i0 -> p <> c * ldy + j) ->
       nth_error y' p = nth_error y p).
Proof. exact (@pack_unpack_roundtrip). Qed.

Example C10_nonvacuous :
  pack [1;0;0; 2;3;0; 4;5;6] 3 3 3 0 [9;9;9;9;9;9;9] = Some ([1;2;3;4;5;6;9], 6) /\
  unpack [1;2;3;4;5;6] 3 3 0 [7;7;7;7;7;7;7;7;7;7;7;7] 4
    = Some [1;7;7;7; 2;3;7;7; 4;5;6;7].
Proof. split; reflexivity. Qed.

(** The bound n + i0 <= ldy is needed: the routine's own guards (n <= m,
    m <= ldx, m <= ldy) accept a call in which unpacking overwrites a packed
    entry.  (The library only calls it with n + i0 <= ldy, see C29.) *)
Theorem C10_guard_too_weak_refuted :
  exists (x buf y : list nat) m n ldx ldy i0 buf' k y',
    n <= m /\ m <= ldx /\ m <= ldy /\
    pack x m n ldx i0 buf = Some (buf', k) /\ unpack buf' m n i0 y ldy = Some y' /\
    exists c j, c < n /\ j <= c + i0 /\
      nth_error y' (c * ldy + j) <> nth_error x (c * ldx + j).
Proof.
  exists [1;2;3;4;5;6;7;8], [0;0;0;0;0;0;0], [0;0;0;0;0;0], 2, 2, 4, 2, 2.
  eexists _, _, _. split; [lia|]. split; [lia|]. split; [lia|]. split; [reflexivity|].
  split; [reflexivity|]. exists 1, 0. split; [lia|]. split; [lia|].
  vm_compute. congruence.
Qed.

(** C29.  After the projected matrix is updated on several processes, every
    process holds, in each upper-triangular entry of the new columns, the sum
    over all processes of their local contributions, and nothing below the
    diagonal is touched. *)
Theorem C29_update_projection_reduces :
  forall (A : Type) (add : A -> A -> A) (zs : list (list A)) numCols blockSize ldZ junk,
  zs <> [] -> numCols + blockSize <= ldZ ->
  (forall z, In z zs -> length z = ldZ * blockSize) ->
  exists zs', reduce_projection add zs numCols blockSize ldZ junk = Some zs' /\
    length zs' = length zs /\
    forall p z z', nth_error zs p = Some z -> nth_error zs' p = Some z' ->
      length z' = length z /\
      (forall c r, c < blockSize -> r <= numCols + c ->
         nth_error z' (c * ldZ + r) = esum add zs (c * ldZ + r)) /\
      (forall c r, c < blockSize -> numCols + c < r < ldZ ->
         nth_error z' (c * ldZ + r) = nth_error z (c * ldZ + r)).
Proof. exact (@reduce_projection_spec). Qed.

Example C29_nonvacuous :
  reduce_projection Nat.add [[1;2;9;8; 3;4;5;9]; [10;20;7;7; 30;40;50;7]] 1 2 4 0
  = Some [[11;22;9;8; 33;44;55;9]; [11;22;7;7; 33;44;55;7]].
Proof. reflexivity. Qed.

Print Assumptions C09_permute_vecs_in_place.
Print Assumptions C10_pack_unpack_roundtrip.
Print Assumptions C29_update_projection_reduces.
