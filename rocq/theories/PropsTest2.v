(** C59: exceptions and cases. *)
From Coq Require Import List Arith Bool Lia ZArith QArith Qcanon Field.
From Verif Require Import Base Values ProjModel SpecProj MatAlg PropsProj PropsQmr4 ConvModel
  VwxrModel SpecVwxr PropsVwxr PropsVwxr2 PropsVwxr3 SpecMove PropsMove5 PropsMove6 TestModel SpecTest PropsTest.
Import ListNotations.
Local Open Scope nat_scope.

(** Every matrix with its rows and columns spread over the processes is such an operator. *)
Definition matop {K} (o : scal K) (np : nat) (mV : nat -> nat) (a : nat -> nat -> nat -> nat -> K) (x : @vect K) : @vect K :=
  fun p r => sum o np (fun q => sum o (mV q) (fun s => kmul o (a p r q s) (x q s))).
Lemma matop_operator {K} (o : scal K) (L : laws o) np mV a : operator o np mV (matop o np mV a).
Proof.
  split.
  - intros x y H p r _ _. unfold matop. apply sum_ext. intros q Hq. apply sum_ext. intros s Hs. now rewrite H.
  - intros n x c p r _ _. unfold matop.
    transitivity (sum o np (fun q => sum o n (fun l => kmul o (sum o (mV q) (fun s => kmul o (a p r q s) (x l q s))) (c l)))).
    + apply sum_ext. intros q _.
      transitivity (sum o (mV q) (fun s => sum o n (fun l => kmul o (kmul o (a p r q s) (x l q s)) (c l)))).
      * apply sum_ext. intros s _. rewrite <- (sum_mull o L). apply sum_ext. intros l _.
        apply (Rmul_assoc (F_R (l_field o L))).
      * rewrite (sum_swap o L). apply sum_ext. intros l _. apply (sum_mulr o L).
    + rewrite (sum_swap o L). apply sum_ext. intros l _. apply (sum_mulr o L).
Qed.
Lemma id_operator {K} (o : scal K) np mV : operator o np mV (fun x => x).
Proof. split; auto. Qed.

Definition Qr : rops Qc := {| r_le := fun a b => Qle_bool (this a) (this b);
  r_lt := fun a b => negb (Qle_bool (this b) (this a)); r_add := Qcplus; r_sub := Qcminus; r_mul := Qcmult; r_zero := 0%Qc |}.
Definition exk : conv_in := {| k_hermitian := true; k_target := smallest; k_shifts := []; k_initSize := 0;
  k_locking := true; k_numLocked := 1; k_maxConvTol := q 0; k_residualError := q 0; k_epsnorm := q 0; k_sqrt := q 1;
  k_givenR := false; k_hasReset := true; k_pract := 0%Z |}.

(** The check of main_iter.c 768, made after the new vectors of the block have been
    orthogonalized against the basis, gives the test the value and the norm of a Ritz pair
    with one of the new vectors: a vector orthogonal to the Ritz vector.  In the case, the
    matrix is diag(1,2,3), the basis the vector (3,4,0)/5, and the new vector its residual,
    normalized. *)
Definition pmem (_ : nat) : @memory Qc := fun a c r =>
  match a, c, r with
  | 0, 0, 0 => (q 3 / q 5)%Qc | 0, 0, 1 => (q 4 / q 5)%Qc
  | 1, 0, 0 => (q 3 / q 5)%Qc | 1, 0, 1 => (q 8 / q 5)%Qc
  | 0, 1, 0 => (q (-4) / q 5)%Qc | 0, 1, 1 => (q 3 / q 5)%Qc
  | _, _, _ => q 0
  end.
Definition pA (p r q0 s : nat) : Qc := if r =? s then q (Z.of_nat r + 1) else q 0.
Definition pval : Qc := (q 41 / q 25)%Qc.
Definition pnorm2 : Qc := (q 144 / q 625)%Qc.
Theorem C59_practical_refuted :
  (forall {K} (o : scal K) (L : laws o) (ro : rops K) k np mV basisSize i norm hval (mem : nat -> @memory K) (h : nat -> nat -> K) j,
     (forall l, l < basisSize -> SpecVwxr.inner o np mV (at_ptr mem (0, basisSize + i)) (at_ptr mem (0, l)) = k0 o) ->
     forall s, In s (practical_calls ro k basisSize i norm hval) ->
     sh_val s = hval /\ sh_norm s = norm /\ exists x, sh_vec s = Some x /\
       SpecVwxr.inner o np mV (at_ptr mem x) (fun p r => rotated o (mem p) (0, 0) basisSize h j r) = k0 o) /\
  let A := matop Qs 1 (fun _ => 3) pA in
  let x := at_ptr pmem (0, 0) in
  holds_products false 1 (fun _ => 3) A (fun x => x) 1 pmem /\
  residual_norm Qs (fun z => z) 1 (fun _ => 3) A (fun x => x) pval x = pnorm2 /\
  SpecVwxr.inner Qs 1 (fun _ => 3) (at_ptr pmem (0, 1)) x = q 0 /\
  exists s, In s (practical_calls Qr exk 1 0 pnorm2 pval) /\ sh_vec s = Some (0, 1) /\
    ~ fits Qs eq (fun z => z) 1 (fun _ => 3) A (fun x => x) pmem s.
Proof.
  split.
  - intros K o L ro k np mV basisSize i norm hval mem h j Ho s Hs.
    destruct (calls_in ro _ _ _ _ _ _ _ _ _ Hs) as (j' & Hj & H1 & H2 & H3).
    assert (j' = 0) by lia. subst j'. cbn in H1, H2. injection H1 as <-. injection H2 as <-.
    split; [reflexivity|]. split; [reflexivity|].
    unfold shift_ptr in H3. cbn [option_map Datatypes.fst Datatypes.snd Nat.sub] in H3. rewrite Nat.add_0_r in H3.
    exists (0, basisSize + i). split; [exact H3|].
    etransitivity; [apply (inner_linear o L np mV basisSize _ (fun l => at_ptr mem (0, l)) (fun l => h l j))|].
    apply (sum_zero o L). intros l Hl. rewrite Ho by auto. apply (mul_zero_l o L).
  - cbv zeta. split; [|split; [|split]].
    + intros j p r Hj Hp Hr. assert (j = 0) by lia. subst j. assert (p = 0) by lia. subst p.
      destruct r as [|[|[|r]]]; [..|lia]; split; apply qceq; vm_compute; reflexivity.
    + apply qceq. vm_compute. reflexivity.
    + apply qceq. vm_compute. reflexivity.
    + eexists. split; [left; reflexivity|]. split; [reflexivity|].
      intros (x & E & F). injection E as <-. revert F. apply qcne. vm_compute. reflexivity.
Qed.

(** When the user asks for the vectors in another type than the solver's, the converted
    array is made and the original one is passed. *)
Theorem C59_type : forall working declared x,
  declared = working \/ declared = op_default ->
  convTestFun working declared (Some x) true = (Vector x working, Some Same).
Proof.
  intros working declared x H. unfold convTestFun, astype_of.
  destruct H as [-> | ->]; destruct working; reflexivity.
Qed.
Theorem C59_type_refuted : forall working declared x,
  declared <> working -> declared <> op_default -> working <> op_default ->
  exists t, convTestFun working declared (Some x) true = (Vector x t, Some (Converted declared)) /\ t <> declared.
Proof.
  intros working declared x H1 H2 H3. exists working. split; [|congruence].
  unfold convTestFun, astype_of. destruct working, declared; try congruence; reflexivity.
Qed.
Example ex_types : op_double <> op_float /\ op_double <> op_default /\ op_float <> op_default.
Proof. repeat split; discriminate. Qed.

(** Cases: the restart of PropsVwxr3.v with W holding the products of a matrix of order
    five spread over two processes; one call is made, with the vector to be locked. *)
Definition tA (p r q0 s : nat) : Qc := q (Z.of_nat (1 + (3 * p + r) * (3 * q0 + s) + p + r + q0 + s)).
Definition tmem (p : nat) : @memory Qc := fun a c r =>
  match a with 1 => matop Qs 2 exrows tA (fun p r => exmem p 0 c r) p r | _ => exmem p a c r end.
Definition thVals : list Qc := [q 2; q 3].
Definition trun := update_VWXR Qs false 2 100 (fun z => z) 2 (restart_job false false None None 3 2 1 1 1 0 exh (fun i => nth i thVals (q 0))) exrows tmem.
Example ex_test_hyps : 2 <= 2 /\ 1 + 1 <= length thVals /\ operator Qs 2 exrows (matop Qs 2 exrows tA) /\
  operator Qs 2 exrows (fun x => x) /\ holds_products false 2 exrows (matop Qs 2 exrows tA) (fun x => x) 3 tmem.
Proof. repeat split; auto; apply matop_operator || apply id_operator; apply Qs_laws. Qed.
Example ex_test_run : on_run trun (fun res =>
  match restart_calls Qr exk 1 1 (map (r_r res) (seq 0 1)) thVals with
  | [Shown v (Some (0, 1)) n] => Qc_eq_bool v (q 3) && negb (Qc_eq_bool n (q 0)) &&
      Qc_eq_bool n (residual_norm Qs (fun z => z) 2 exrows (matop Qs 2 exrows tA) (fun x => x) v (at_ptr (r_mem res) (0, 1)))
  | _ => false
  end) = true.
Proof. vm_compute. reflexivity. Qed.
(** Candidates 0 and 1 of a block, both unconverged; without the vectors the same calls without them. *)
Definition crun := update_VWXR Qs false 2 100 (fun z => z) 2 (candidates_job false true 3 0 2 exh (fun i => nth i thVals (q 0))) exrows tmem.
Example ex_candidates_run : on_run crun (fun res =>
  match candidate_calls Qr exk true 3 0 2 (map (floor_norms Qr (q 1) 0 2 (r_R res)) (seq 0 2)) thVals with
  | [Shown v (Some (0, 3)) n; Shown v' (Some (0, 4)) n'] => Qc_eq_bool v (q 2) && Qc_eq_bool v' (q 3) &&
      Qc_eq_bool n' (residual_norm Qs (fun z => z) 2 exrows (matop Qs 2 exrows tA) (fun x => x) v' (at_ptr (r_mem res) (0, 4)))
  | _ => false
  end &&
  match candidate_calls Qr exk false 3 0 2 (map (floor_norms Qr (q 1) 0 2 (r_R res)) (seq 0 2)) thVals with
  | [Shown _ None _; Shown _ None _] => true
  | _ => false
  end) = true.
Proof. vm_compute. reflexivity. Qed.
Example ex_verify_run :
  let out := verify_norms Qs (fun z => z) false (fun i => nth i thVals (q 0)) 2 2 exrows tmem in
  match verify_calls Qr exk 2 (Datatypes.fst out) thVals with
  | [Shown v (Some (0, 0)) n; Shown v' (Some (0, 1)) n'] => negb (Qc_eq_bool n n')
  | _ => false
  end = true.
Proof. vm_compute. reflexivity. Qed.
