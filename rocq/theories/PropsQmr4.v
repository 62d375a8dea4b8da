(** C53, cases: the hypotheses are met, and what does not hold of the code. *)
From Coq Require Import List Arith Lia Bool QArith Qcanon.
From Verif Require Import Base ProjModel SpecProj PropsProj QmrModel SpecQmr PropsQmr PropsQmr2 PropsExtract2.
Import ListNotations.
Local Open Scope nat_scope.
Set Implicit Arguments.

Lemma qceq (a b : Qc) : Qc_eq_bool a b = true -> a = b.
Proof. apply Qc_eq_bool_correct. Qed.
Lemma qcne (a b : Qc) : Qc_eq_bool a b = false -> a <> b.
Proof. intros H ->. unfold Qc_eq_bool in H. destruct (Qc_eq_dec b b); congruence. Qed.

(** A matrix of order 4; x = e0 has Rayleigh quotient 1 and residual (0,1,0,1). *)
Definition jA := tab [[1;1;0;1];[1;2;1;1];[0;1;-2;0];[1;1;0;0]]%Z.
Definition jX : nat -> nat -> Qc := fun _ e => if e =? 0 then 1%Qc else 0%Qc.
Definition jQ : nat -> nat -> Qc := fun _ _ => 0%Qc.
Definition jshift : nat -> Qc := fun _ => 1%Qc.
Definition jr : nat -> Qc := fun e => (times_v Qs 4 jA (jX 0) e - 1 * jX 0 e)%Qc.
(** A diagonal preconditioner. *)
Definition jK (v : nat -> Qc) : nat -> Qc := fun e => (nth e [q 1; q 4; q 2; q 1] 0 * v e)%Qc.
Definition jsolve (n : nat) (A : nat -> nat -> Qc) (b : nat -> Qc) : nat -> Qc := b.

(** The projections of the preset RQI: LeftQ, LeftX, RightX; and without preconditioner. *)
Definition jc (precond : bool) := Choice true true false true false false precond true false 0 4.

Definition setup_of (c : choice) n Kinv : setup :=
  match setup_JD_projectors Qs c n Kinv jX jX jQ None jQ 0 0 1 with
  | Some s => s | None => Setup jQ None 0 0 jQ jQ 0 jQ 0 jQ (fun _ => 0%Qc) end.
Definition M_of (c : choice) n Am Kinv (v : nat -> Qc) : nat -> Qc :=
  match apply_projected_matrix Qs jsolve c n (times_v Qs n Am) (fun v => v) (setup_of c n Kinv) jshift 0 v with
  | Some w => w | None => v end.
Definition K_of (c : choice) n Kinv (v : nat -> Qc) : nat -> Qc :=
  match apply_projected_preconditioner Qs jsolve c n Kinv (setup_of c n Kinv) Null 0 v with
  | Some w => w | None => v end.

Lemma j_setting b : inner_setting Qs jsolve (jc b) 4 0 jA jK jX jQ jQ 0 0 1 0 jshift 1%Qc jr (M_of (jc b) 4 jA jK) (K_of (jc b) 4 jK).
Proof.
  split; try reflexivity.
  - lia.
  - intros a c Ha Hc. do 4 (destruct a as [|a]; [do 4 (destruct c as [|c]; [reflexivity|]); lia|]). lia.
  - intros a c. unfold dot, jK. cbn. ring.
  - repeat split; intros; lia.
  - exists (setup_of (jc b) 4 jK). destruct b; split; try reflexivity; split; intros; reflexivity.
Qed.

Lemma j_choice b : symmetric_choice Qs (jc b) 4 0 jK (jX 0).
Proof. right. split; [reflexivity|]. split; [discriminate|]. left. reflexivity. Qed.

Definition run_of c n Am Kinv m := qmr_run Qs (vecs Qs n) (M_of c n Am Kinv) (K_of c n Kinv)
   (fun e => times_v Qs n Am (jX 0) e - 1 * jX 0 e)%Qc
   (inner Qs n (fun e => times_v Qs n Am (jX 0) e - 1 * jX 0 e) (fun e => times_v Qs n Am (jX 0) e - 1 * jX 0 e))%Qc m.

(** Test of a run. *)
Definition on_run {A} (r : option A) (f : A -> bool) : bool := match r with Some q => f q | None => false end.
Lemma on_run_ok {A} (r : option A) f : on_run r f = true -> exists q, r = Some q /\ f q = true.
Proof. destruct r; [|discriminate]. eauto. Qed.

(** Two iterations without preconditioner: the hypotheses of C53_solver_ritz_value,
    C53_solver_linear_residual and C53_solver_eigen_residual are met, with tau not
    zero and x - sol not zero. *)
Example C53_case_plain : exists q, run_of (jc false) 4 jA jK 1 = Some q /\
  qtau2 q <> 0%Qc /\ inner Qs 4 (fun e => jX 0 e - qsol q e)%Qc (fun e => jX 0 e - qsol q e)%Qc <> 0%Qc.
Proof.
  destruct (@on_run_ok _ (run_of (jc false) 4 jA jK 1) (fun q => negb (Qc_eq_bool (qtau2 q) 0%Qc) &&
    negb (Qc_eq_bool (inner Qs 4 (fun e => jX 0 e - qsol q e)%Qc (fun e => jX 0 e - qsol q e)%Qc) 0%Qc))) as [q [H1 H2]].
  { vm_compute. reflexivity. }
  exists q. split; [exact H1|]. apply andb_true_iff in H2. destruct H2 as [A B].
  split; apply qcne; apply negb_true_iff; assumption.
Qed.

(** ** C53: what does not hold

    The code takes sqrt(numIts) tau as a bound of the norm of the linear residual
    (inner_solve.c 570-574).  After two iterations (numIts = 1), with the projections
    of the preset RQI and a diagonal preconditioner, the norm of r - M sol is larger. *)
Theorem C53_tested_norm_refuted : exists n k Am Kinv X Q hat r M Kp q d,
  inner_setting Qs jsolve (jc true) n k Am Kinv X Q hat 0 0 1 0 jshift 1%Qc r M Kp /\
  symmetric_choice Qs (jc true) n k Kinv (X 0) /\
  qmr_run Qs (vecs Qs n) M Kp r (inner Qs n r r) 1 = Some q /\
  (forall e, d e = r e - M (qsol q) e)%Qc /\
  (tested2 Qs 1 q < inner Qs n d d)%Qc.
Proof.
  set (test := fun q : qst Qc (nat -> Qc) => match (tested2 Qs 1 q ?= inner Qs 4 (fun e => jr e - M_of (jc true) 4 jA jK (qsol q) e)%Qc
          (fun e => jr e - M_of (jc true) 4 jA jK (qsol q) e)%Qc)%Qc with Lt => true | _ => false end).
  destruct (@on_run_ok _ (run_of (jc true) 4 jA jK 1) test) as [q [H1 H2]].
  { vm_compute. reflexivity. }
  exists 4, 0, jA, jK, jX, jQ, jQ, jr, (M_of (jc true) 4 jA jK), (K_of (jc true) 4 jK), q,
    (fun e => jr e - M_of (jc true) 4 jA jK (qsol q) e)%Qc.
  split; [apply j_setting|]. split; [apply j_choice|]. split; [exact H1|]. split; [reflexivity|].
  unfold test in H2. apply Qclt_alt. destruct (_ ?= _)%Qc; congruence.
Qed.

(** The presets JDQMR and JDQMR_ETol have no right projection with x.  With a
    preconditioner the value followed (eval_updated, which stops the iteration and is
    reported to the monitor) is then not the Rayleigh quotient of x - sol, nor of x
    minus the part of sol orthogonal to x. *)
Definition kA := tab [[1;1];[1;3]]%Z.
Definition kK (v : nat -> Qc) : nat -> Qc := times_v Qs 2 (tab [[2;1];[1;2]]%Z) v.
Definition jdqmr := Choice true true false false false true true true false 0 2.
Definition kr : nat -> Qc := fun e => (times_v Qs 2 kA (jX 0) e - 1 * jX 0 e)%Qc.

Lemma k_setting : inner_setting Qs jsolve jdqmr 2 0 kA kK jX jQ jQ 0 0 1 0 jshift 1%Qc kr (M_of jdqmr 2 kA kK) (K_of jdqmr 2 kK).
Proof.
  split; try reflexivity.
  - lia.
  - intros a c Ha Hc. do 2 (destruct a as [|a]; [do 2 (destruct c as [|c]; [reflexivity|]); lia|]). lia.
  - intros a c. unfold dot, kK, times_v, tab. cbn -[q Qcplus Qcmult]. ring.
  - repeat split; intros; lia.
  - exists (setup_of jdqmr 2 kK). split; try reflexivity; split; intros; reflexivity.
Qed.

Theorem C53_preset_value_refuted : exists n k Am Kinv X Q hat theta r M Kp q,
  inner_setting Qs jsolve jdqmr n k Am Kinv X Q hat 0 0 1 0 jshift theta r M Kp /\
  qmr_run Qs (vecs Qs n) M Kp r (inner Qs n r r) 0 = Some q /\
  let x := X 0 in
  let y1 := (fun e => x e - qsol q e)%Qc in
  let y2 := (fun e => x e - (qsol q e - inner Qs n x (qsol q) * x e))%Qc in
  let ev := eval_updated Qs (vecs Qs n) theta (jshift 0) q in
  (ev * inner Qs n y1 y1 <> inner Qs n y1 (times_v Qs n Am y1) /\
   ev * inner Qs n y2 y2 <> inner Qs n y2 (times_v Qs n Am y2))%Qc.
Proof.
  set (test := fun q : qst Qc (nat -> Qc) =>
    let x := jX 0 in
    let y1 := (fun e => x e - qsol q e)%Qc in
    let y2 := (fun e => x e - (qsol q e - inner Qs 2 x (qsol q) * x e))%Qc in
    let ev := eval_updated Qs (vecs Qs 2) 1%Qc (jshift 0) q in
    negb (Qc_eq_bool (ev * inner Qs 2 y1 y1)%Qc (inner Qs 2 y1 (times_v Qs 2 kA y1))) &&
    negb (Qc_eq_bool (ev * inner Qs 2 y2 y2)%Qc (inner Qs 2 y2 (times_v Qs 2 kA y2)))).
  destruct (@on_run_ok _ (run_of jdqmr 2 kA kK 0) test) as [q [H1 H2]].
  { vm_compute. reflexivity. }
  exists 2, 0, kA, kK, jX, jQ, jQ, 1%Qc, kr, (M_of jdqmr 2 kA kK), (K_of jdqmr 2 kK), q.
  split; [apply k_setting|]. split; [exact H1|]. cbv zeta.
  unfold test in H2. cbv zeta in H2. apply andb_true_iff in H2. destruct H2 as [A B].
  split; apply qcne; apply negb_true_iff; assumption.
Qed.
