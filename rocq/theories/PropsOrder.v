(** Property theorems about orderings: Ritz pairs (C11), returned pairs
    (C12), merged list of shifts (C23). *)
From Verif Require Import Base Values PermModel RitzModel RitzProofs
  LockModel LockProofs MergeModel MergeProofs.
From Coq Require Import String.
From Coq Require Import List Arith Bool Lia Permutation Sorted ZArith.
Import ListNotations.

(** C11.  [vals]/[vecs] come from the dense solver, eigenvalues ascending (of
    -H for target largest, whose signs are flipped back).  The result pairs
    are a rearrangement, and the values are in the order of the target with
    respect to the current shift.  The first part holds for every outcome of
    the comparisons, so also with NaN. *)
Theorem C11_ritz_pairs_rearranged_in_target_order :
  forall (V B : Type) (o : vops V) t shifts numConverged (vals : list V) (vecs : list B),
  shifts <> [] -> length vecs = length vals ->
  exists vals' vecs', order_ritz o t shifts numConverged vals vecs = Some (vals', vecs') /\
    length vals' = length vals /\ length vecs' = length vecs /\
    Permutation (combine vals' vecs')
      (combine (match t with largest => map (vneg o) vals | _ => vals end) vecs) /\
    (vlaws o -> ascending o vals ->
       forall s, nth_error shifts (Nat.min (length shifts - 1) numConverged) = Some s ->
       target_order o t s vals').
Proof. exact (fun V B o => @order_ritz_correct V o B). Qed.

Example C11_nonvacuous :
  ascending Zops [1;3;4;8]%Z /\
  order_ritz Zops closest_abs [5%Z] 0 [1;3;4;8]%Z ["a"%string;"b"%string;"c"%string;"d"%string]
    = Some ([4;3;8;1]%Z, ["c"%string;"b"%string;"d"%string;"a"%string]) /\
  order_ritz Zops closest_geq [5%Z] 0 [1;3;4;8]%Z [0;1;2;3] = Some ([8;1;3;4]%Z, [3;0;1;2]) /\
  order_ritz Zops closest_leq [3%Z] 0 [1;3;4;8]%Z [0;1;2;3] = Some ([3;1;8;4]%Z, [1;0;3;2]) /\
  order_ritz Zops largest_abs [5%Z] 0 [1;3;4;8]%Z [0;1;2;3] = Some ([1;8;3;4]%Z, [0;3;1;2]).
Proof.
  split. { unfold ascending. repeat constructor. }
  repeat split; vm_compute; reflexivity.
Qed.

(** C12.  Start from freshly allocated arrays of any content and lock pairs
    in any number of rounds; each round proposes any candidates (value, norm,
    flag, vector), of which those not flagged unconverged are locked.  At the
    end the output arrays, at position i, all describe the same pair, one of
    the locked ones, each locked pair appearing exactly once; and the values
    are ordered by the target (for interior targets within runs of pairs
    sought with the same shift). *)
Theorem C12_output_pairs_consistent :
  forall (V N X : Type) (o : vops V) t shifts numEvals
         (evals0 : list V) (norms0 : list N) (flags0 : list flag) (evecs0 : list X)
         (rounds : list (list (cand (V:=V) (N:=N) (X:=X)))),
  shifts <> [] \/ extreme t = true ->
  length evals0 = numEvals -> length norms0 = numEvals -> length flags0 = numEvals ->
  numEvals <= length evecs0 ->
  rounds_fit numEvals 0 rounds ->
  let H := filter is_locked (concat rounds) in
  exists st vecs p,
    lock_run o t shifts numEvals (lock_init numEvals evals0 norms0 flags0 evecs0) rounds = Some st /\
    l_num st = length H /\
    final_evecs st = Some vecs /\
    Permutation p (seq 0 (length H)) /\
    (forall i k, nth_error p i = Some k -> exists c,
       nth_error H k = Some c /\
       nth_error (l_evals st) i = Some (c_val c) /\
       nth_error (l_norms st) i = Some (c_norm c) /\
       nth_error (l_flags st) i = Some (c_flag c) /\
       nth_error vecs i = Some (c_vec c)).
Proof.
  intros V N X o t shifts numEvals evals0 norms0 flags0 evecs0 rounds Hsh L1 L2 L3 L4 HF H.
  destruct evals0 as [|d ev] eqn:EE.
    + (* numEvals = 0: nothing can be proposed *)
      simpl in L1. subst numEvals.
      assert (HN : forall l (n : nat), rounds_fit 0 n l -> n = 0 -> concat l = @nil (cand (V:=V) (N:=N) (X:=X))).
      { induction l as [|a l IH]; intros n HR Hn; auto. simpl in *. destruct HR as [H1 H2].
        destruct a; simpl in *; [|lia]. apply (IH _ H2). lia. }
      assert (HC : concat rounds = []) by (eapply HN; eauto).
      assert (HR : forall l (st : locked (V:=V) (N:=N) (X:=X)), concat l = [] -> lock_run o t shifts 0 st l = Some st).
      { induction l as [|a l IH]; intros st HC'; auto. simpl in HC'.
        apply app_eq_nil in HC'. destruct HC' as [-> HC']. simpl.
        destruct st; simpl. apply IH. auto. }
      unfold H. rewrite HC.
      eexists _, evecs0, []. split; [apply HR; auto|]. split; [reflexivity|].
      split; [reflexivity|]. split; [apply Permutation_refl|].
      intros [|i] k Hk; discriminate.
    + rewrite <- EE in *.
      destruct (lock_run_spec o t shifts d numEvals rounds
                 (lock_init numEvals evals0 norms0 flags0 evecs0) [] Hsh) as [st [E [I S]]]; auto.
      { apply linv_init. }
      { unfold sizes; simpl. rewrite seq_length. auto. }
      simpl in I. fold H in I.
      assert (Hle : l_num st <= numEvals).
      { pose proof (li_perm _ _ _ _ _ _ I) as HP. apply is_perm_length in HP.
        rewrite firstn_length in HP. destruct S as [_ [_ [_ [S4 _]]]]. lia. }
      destruct (lock_final o t shifts d numEvals st H I S Hle) as [vecs [p [E2 [P G]]]].
      exists st, vecs, p. split; auto. split; [apply (li_num _ _ _ _ _ _ I)|].
      split; auto.
Qed.

Theorem C12_output_values_ordered :
  forall (V N X : Type) (o : vops V) t shifts numEvals d
         (evals0 : list V) (norms0 : list N) (flags0 : list flag) (evecs0 : list X)
         (rounds : list (list (cand (V:=V) (N:=N) (X:=X)))) st,
  vlaws o -> (extreme t = false -> shifts_canonical o shifts) ->
  shifts <> [] \/ extreme t = true ->
  length evals0 = numEvals -> length norms0 = numEvals -> length flags0 = numEvals ->
  numEvals <= length evecs0 ->
  rounds_fit numEvals 0 rounds ->
  lock_run o t shifts numEvals (lock_init numEvals evals0 norms0 flags0 evecs0) rounds = Some st ->
  forall i j a b, i < j < l_num st ->
    nth_error (l_evals st) i = Some a -> nth_error (l_evals st) j = Some b ->
    (extreme t = true \/ forall k, i <= k <= j -> shift_at shifts d k = shift_at shifts d j) ->
    key_le o t (shift_at shifts d j) a b.
Proof.
  intros V N X o t shifts numEvals d evals0 norms0 flags0 evecs0 rounds st
    L HC Hsh L1 L2 L3 L4 HF HR i j a b Hij Ha Hb Hs.
  destruct (lock_run_spec o t shifts d numEvals rounds
             (lock_init numEvals evals0 norms0 flags0 evecs0) [] Hsh) as [st' [E [I S]]]; auto.
  { apply linv_init. }
  { unfold sizes; simpl. rewrite seq_length. auto. }
  assert (st' = st) by congruence. subst st'.
  apply (adj_to_all o t shifts d (firstn (l_num st) (l_evals st)) L) with (p := i); auto; try lia.
  - apply (li_ord _ _ _ _ _ _ I); auto.
  - rewrite nth_error_firstn. destruct (Nat.ltb_spec i (l_num st)); auto; lia.
  - rewrite nth_error_firstn. destruct (Nat.ltb_spec j (l_num st)); auto; lia.
Qed.

(** Two rounds, one candidate rejected; smallest eigenvalues. *)
Example C12_nonvacuous :
  let rounds := [ [ (5%Z, 50, CONVERGED, "five"%string); (7%Z, 70, UNCONVERGED, "seven"%string);
                    (3%Z, 30, PRACTICALLY_CONVERGED, "three"%string) ];
                  [ (4%Z, 40, CONVERGED, "four"%string) ] ] in
  rounds_fit 3 0 rounds /\
  exists st, lock_run Zops smallest [] 3
      (lock_init 3 [0;0;0]%Z [0;0;0] [UNCONVERGED;UNCONVERGED;UNCONVERGED]
                 [""%string;""%string;""%string;""%string]) rounds = Some st /\
    l_evals st = [3;4;5]%Z /\ l_norms st = [30;40;50] /\
    l_flags st = [PRACTICALLY_CONVERGED; CONVERGED; CONVERGED] /\
    final_evecs st = Some ["three"%string;"four"%string;"five"%string;""%string].
Proof.
  split; [simpl; lia|]. eexists. split; [vm_compute; reflexivity|]. repeat split; reflexivity.
Qed.

(** C23.  The merged list holds every locked and every current value exactly
    once, in target order; [pos] says where each current value went, and the
    recorded positions are those of the first blockSize unconverged ones. *)
Theorem C23_merge_complete_and_ordered :
  forall (V : Type) (o : vops V) t locked ritz blockSize,
  vlaws o -> t = smallest \/ t = largest ->
  in_order o t locked -> in_order o t (map fst ritz) ->
  exists sorted ilev pos,
    mergeSort o t locked ritz blockSize = Some (map Some sorted, ilev) /\
    Permutation sorted (locked ++ map fst ritz) /\ in_order o t sorted /\
    positions_ok 0 (map Some sorted) pos ritz /\
    ilev = firstn blockSize (select_unconv pos ritz).
Proof.
  intros V o t locked ritz blockSize L Ht H1 H2.
  apply in_order_SS in H1; auto. apply in_order_SS in H2; auto.
  destruct (merge_loop_spec o L t Ht (length locked + length ritz) locked ritz blockSize 0)
    as [out [ilev [pos [E [P [S [Q I]]]]]]]; auto.
  exists out, ilev, pos. split; auto. split; auto. split; [apply in_order_SS; auto|]. auto.
Qed.

Example C23_nonvacuous :
  mergeSort Zops largest [9;4]%Z [(8,CONVERGED);(4,UNCONVERGED);(1,UNCONVERGED)]%Z 2
  = Some ([Some 9;Some 8;Some 4;Some 4;Some 1]%Z, [2;4]).
Proof. reflexivity. Qed.

(** With a value that compares false to everything (NaN) the merge leaves
    entries unwritten: the order laws are needed. *)
Definition nanops : vops (option Z) :=
  {| vleb := fun a b => match a, b with Some x, Some y => Z.leb x y | _, _ => false end;
     vltb := fun a b => match a, b with Some x, Some y => Z.ltb x y | _, _ => false end;
     veqb := fun a b => match a, b with Some x, Some y => Z.eqb x y | _, _ => false end;
     vsub := fun a b => match a, b with Some x, Some y => Some (Z.sub x y) | _, _ => None end;
     vabs := fun a => match a with Some x => Some (Z.abs x) | _ => None end;
     vneg := fun a => match a with Some x => Some (Z.opp x) | _ => None end |}.

Theorem C23_merge_with_nan_leaves_holes_refuted :
  exists locked ritz out ilev, mergeSort nanops smallest locked ritz 1 = Some (out, ilev) /\
    In None out.
Proof.
  exists [Some 1%Z], [(None, UNCONVERGED)]. eexists _, _. split; [vm_compute; reflexivity|].
  simpl. auto.
Qed.

Print Assumptions C11_ritz_pairs_rearranged_in_target_order.
Print Assumptions C12_output_pairs_consistent.
Print Assumptions C12_output_values_ordered.
Print Assumptions C23_merge_complete_and_ordered.
