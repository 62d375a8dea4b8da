(** C51: when the shift has changed, cases and refutations.

    The kernels of the cases propose an answer and check it: an answer that does
    not satisfy what is assumed of the kernel is not given. *)
From Coq Require Import List Arith Bool Lia Field Setoid Morphisms ZArith QArith Qcanon Reals Lra.
From Verif Require Import Base ProjModel SpecProj PropsProj MatAlg ExtractModel SpecExtract PropsExtract PropsExtract2
  ReprojModel SpecReproj PropsReproj PropsReproj2.
Import ListNotations.
Local Open Scope nat_scope.

(** ** The shift of the next pair *)

(** Real numbers. *)
Definition Rcmp : reals R := Reals R (fun a b => Rabs (a - b)) (fun a b => if Rlt_dec b a then true else false)
  (fun a => if Req_EM_T a 0 then false else true) 0%R 1%R.

(** What the comment of the source asks for: there was no shift, or it is another number. *)
Definition new_shift (index : option nat) (shifts : list R) (k : nat) : Prop :=
  match index with
  | None => True
  | Some i => exists a b, nth_error shifts i = Some a /\
      nth_error shifts (Nat.min (length shifts - 1) k) = Some b /\ a <> b
  end.

(** With a threshold below one, restart_RR finds every change. *)
Theorem C51_shift_change_found index shifts k threshold b : (0 <= threshold < 1)%R ->
  rr_changed Rcmp index shifts k threshold = Some b -> (b = true <-> new_shift index shifts k).
Proof.
  intros Ht H. unfold rr_changed, get in H.
  destruct (nth_error shifts (Nat.min (length shifts - 1) k)) as [y|] eqn:Ey; [|discriminate]. cbn [bind] in H.
  destruct index as [i|]; cbn [new_shift].
  - destruct (nth_error shifts i) as [x|] eqn:Ex; [|discriminate]. cbn [bind] in H. injection H as <-.
    unfold of_bool. cbn [gt Rcmp nonzero dist rone rzero].
    destruct (Req_EM_T (Rabs (x - y)) 0) as [E|E].
    + destruct (Rlt_dec threshold 0) as [C|_]; [lra|]. split; [discriminate|].
      intros (a & c & Ea & Ec & Hn). injection Ea as <-. rewrite Ey in Ec. injection Ec as <-.
      exfalso. apply Hn. destruct (Req_dec (x - y) 0) as [D|D]; [lra|]. apply Rabs_no_R0 in D. contradiction.
    + destruct (Rlt_dec threshold 1) as [_|C]; [|lra]. split; [|reflexivity]. intros _. exists x, y.
      split; [reflexivity|]. split; [exact Ey|]. intros ->. apply E. rewrite Rminus_diag_eq, Rabs_R0; reflexivity.
  - injection H as <-. unfold of_bool. cbn [gt Rcmp rone].
    destruct (Rlt_dec threshold 1) as [_|C]; [|lra]. tauto.
Qed.

(** restart_refined finds the changes larger than the threshold. *)
Theorem C51_shift_change_found_refined shifts i k threshold x y :
  nth_error shifts i = Some x -> nth_error shifts (Nat.min (length shifts - 1) k) = Some y ->
  ref_changed Rcmp None shifts k threshold = Some true /\
  exists b, ref_changed Rcmp (Some i) shifts k threshold = Some b /\ (b = true <-> (Rabs (x - y) > threshold)%R).
Proof.
  intros Ex Ey. unfold ref_changed, get. rewrite Ex, Ey. cbn [bind]. split; [reflexivity|]. eexists. split; [reflexivity|].
  cbn [gt Rcmp dist]. destruct (Rlt_dec threshold (Rabs (x - y))); split; intros; try discriminate; auto; contradiction.
Qed.

(** With a threshold of one or more (a matrix of norm 1/eps), restart_RR finds no
    change at all: not the first one, not one a million times the threshold. *)
Theorem C51_shift_change_missed_refuted :
  (forall index shifts k threshold b, (1 <= threshold)%R ->
     rr_changed Rcmp index shifts k threshold = Some b -> b = false) /\
  rr_changed Rcmp (Some 0) [0; 1000000]%R 1 1%R = Some false /\
  ref_changed Rcmp (Some 0) [0; 1000000]%R 1 1%R = Some true.
Proof.
  split; [|split].
  - intros index shifts k threshold b Ht H. unfold rr_changed, get in H.
    destruct (nth_error shifts (Nat.min (length shifts - 1) k)) as [y|]; [|discriminate]. cbn [bind] in H.
    assert (G : forall c, gt Rcmp (of_bool Rcmp c) threshold = false).
    { intros c. unfold of_bool. destruct c; cbn [gt Rcmp rone rzero]; destruct (Rlt_dec threshold _); auto; lra. }
    destruct index as [i|]; [destruct (nth_error shifts i); [|discriminate]; cbn [bind] in H|];
      match type of H with Some ?x = Some _ => transitivity x; [congruence|apply G] end.
  - unfold rr_changed, get. cbn [length Nat.sub Nat.min nth_error bind]. f_equal.
    unfold of_bool. destruct (nonzero Rcmp _); cbn [gt Rcmp rone rzero]; destruct (Rlt_dec 1 _); auto; lra.
  - unfold ref_changed, get. cbn [length Nat.sub Nat.min nth_error bind]. f_equal. cbn [gt Rcmp dist].
    destruct (Rlt_dec 1 (Rabs (0 - 1000000))) as [|C]; [reflexivity|]. exfalso. apply C.
    rewrite Rabs_left by lra. lra.
Qed.

(** The cases met: a change below one half, and no change. *)
Example C51_case_shift : rr_changed Rcmp (Some 0) [1; 2]%R 5 (1/2)%R = Some true /\ new_shift (Some 0) [1; 2]%R 5.
Proof.
  assert (N : new_shift (Some 0) [1; 2]%R 5).
  { exists 1%R, 2%R. cbn. repeat split; lra. }
  split; [|exact N]. destruct (rr_changed Rcmp (Some 0) [1; 2]%R 5 (1/2)%R) as [b|] eqn:E; [|discriminate].
  f_equal. apply (C51_shift_change_found (Some 0) [1; 2]%R 5 (1/2)%R b); [lra|exact E|exact N].
Qed.

(** ** Kernels that check their answers *)
Notation Qs := PropsProj.Qs.
Notation Qs_laws := PropsProj.Qs_laws.
Notation q := PropsProj.q.
Notation mxq := (nat -> nat -> Qc).

Definition all_eq (m n : nat) (A B : mxq) : bool :=
  forallb (fun i => forallb (fun j => Qc_eq_bool (A i j) (B i j)) (seq 0 n)) (seq 0 m).
Lemma all_eq_ok m n A B : all_eq m n A B = true -> meq m n A B.
Proof.
  intros H i j Hi Hj. unfold all_eq in H. rewrite forallb_forall in H. specialize (H i).
  rewrite forallb_forall in H. apply Qc_eq_bool_correct. apply H; apply in_seq; lia.
Qed.

Definition nonnegb (a : Qc) : bool := Qle_bool 0 (this a).
Definition nonneg (a : Qc) : Prop := nonnegb a = true.
Lemma nonneg_Qc : nonneg_right Qs nonneg.
Proof.
  intros a b Ha Hb H. unfold nonneg, nonnegb in *. apply Qle_bool_iff in Ha, Hb.
  change (kmul Qs (kconj Qs a) a) with (a * a)%Qc in H. change (kmul Qs (kconj Qs b) b) with (b * b)%Qc in H.
  assert (E : ((a - b) * (a + b) = 0)%Qc).
  { replace ((a - b) * (a + b))%Qc with (a * a - b * b)%Qc by ring. rewrite H. ring. }
  apply Qcmult_integral in E. destruct E as [E|E].
  - replace a with ((a - b) + b)%Qc by ring. rewrite E. ring.
  - assert (H0 : (0 <= a)%Qc) by exact Ha. assert (H1 : (0 <= b)%Qc) by exact Hb.
    assert (Eb : a = (- b)%Qc) by (replace a with ((a + b) - b)%Qc by ring; rewrite E; ring).
    assert (Hb0 : b = 0%Qc).
    { apply Qcle_antisym; [|exact H1]. rewrite Eb in H0. apply Qcopp_le_compat in H0.
      replace (- - b)%Qc with b in H0 by ring. exact H0. }
    rewrite Eb, Hb0. ring.
Qed.

(** The proposed columns (Z, T) for the orthonormalization. *)
Definition qr_try (cand : nat -> mxq -> nat -> nat -> mxq * mxq) : qr_local Qc := fun m V R b1 b2 G =>
  let '(Z, T) := cand m V b1 b2 in
  let V' : mxq := fun r c => if c <? b1 then V r c else Z r c in
  let R' : mxq := fun r c => if c <? b1 then R r c else if c <? b2 then
                     (if r <? b2 then (if r <=? c then T r c else 0%Qc) else R r c) else R r c in
  if forallb (fun c => all_eq m (c + 1) (fun r l => if l =? c then V r l else 0%Qc)
                              (fun r l => if l =? c then mul Qs (c + 1) V' R' r l else 0%Qc)) (seq b1 (b2 - b1))
     && forallb (fun c => nonnegb (R' c c)) (seq b1 (b2 - b1))
     && ((b2 <=? b1) || all_eq b2 b2 (form Qs m V' (opt Qs G) V') (one Qs))
  then Some (V', R') else None.

Lemma qr_try_facts cand m V R b1 b2 G V' R' : qr_try cand m V R b1 b2 G = Some (V', R') ->
  (forall r c, c < b1 -> V' r c = V r c /\ R' r c = R r c) /\
  (forall r c, r < m -> b1 <= c < b2 -> V r c = mul Qs (c + 1) V' R' r c) /\
  (forall r c, b1 <= c < b2 -> c < r -> r < b2 -> R' r c = k0 Qs) /\
  (forall r c, b1 <= c < b2 -> b2 <= r -> R' r c = R r c) /\
  (forall c, b1 <= c < b2 -> nonneg (R' c c)) /\
  (orthonormal_in Qs m b1 (opt Qs G) V -> orthonormal_in Qs m b2 (opt Qs G) V').
Proof.
  unfold qr_try. destruct (cand m V b1 b2) as [Z T]. cbv zeta.
  match goal with |- context[forallb _ _ && forallb _ _ && (_ || all_eq b2 b2 (form Qs m ?X _ _) _)] => set (V1 := X) end.
  match goal with |- context[Some (V1, ?X)] => set (R1 := X) end.
  destruct (forallb _ _) eqn:E1; [|discriminate]. destruct (forallb _ (seq b1 (b2 - b1))) eqn:E2 in |- *; [|discriminate].
  destruct ((b2 <=? b1) || all_eq b2 b2 _ _) eqn:E3; [|discriminate]. cbn [andb]. intros H. injection H as <- <-.
  split; [|split; [|split; [|split; [|split]]]].
  - intros r c Hc. unfold V1, R1. destruct (Nat.ltb_spec c b1); [auto|lia].
  - intros r c Hr Hc. rewrite forallb_forall in E1. specialize (E1 c). rewrite in_seq in E1.
    specialize (E1 ltac:(lia)). apply all_eq_ok in E1. specialize (E1 r c Hr ltac:(lia)). cbv beta in E1.
    rewrite Nat.eqb_refl in E1. exact E1.
  - intros r c Hc H1 H2. unfold R1. destruct (Nat.ltb_spec c b1); [lia|]. destruct (Nat.ltb_spec c b2); [|lia].
    destruct (Nat.ltb_spec r b2); [|lia]. destruct (Nat.leb_spec r c); [lia|reflexivity].
  - intros r c Hc H1. unfold R1. destruct (Nat.ltb_spec c b1); [lia|]. destruct (Nat.ltb_spec c b2); [|lia].
    destruct (Nat.ltb_spec r b2); [lia|reflexivity].
  - intros c Hc. rewrite forallb_forall in E2. apply E2. apply in_seq. lia.
  - intros HG. destruct (Nat.leb_spec b2 b1) as [Hb|Hb].
    + intros i j Hi Hj. rewrite <- (HG i j) by lia. unfold form, mul, adj, V1. apply sum_ext. intros l Hl.
      destruct (Nat.ltb_spec i b1); [|lia]. destruct (Nat.ltb_spec j b1); [|lia]. reflexivity.
    + apply all_eq_ok. exact E3.
Qed.

Lemma qr_try_right cand : qr_right Qs nonneg (qr_try cand).
Proof.
  intros m V R b1 b2 V' R' H. destruct (qr_try_facts cand m V R b1 b2 None V' R' H) as (A & B & C & D & E & F).
  repeat (split; [assumption|]). unfold orthonormal_in, form in F. cbn [opt] in F.
  rewrite !(mul_1_l Qs Qs_laws) in F. exact F.
Qed.
Lemma qr_try_right_in cand G : qr_right_in Qs G nonneg (qr_try cand).
Proof.
  intros m V R b1 b2 V' R' H. destruct (qr_try_facts cand m V R b1 b2 (Some G) V' R' H) as (A & B & C & D & E & F).
  repeat (split; [assumption|]). exact F.
Qed.

(** The proposed vectors (X) of the eigenproblem, and (U, Vt) of the singular value problem. *)
Definition try_kernels (eig : nat -> list mxq) (svd : nat -> list (mxq * mxq)) : kernels Qc := Kernels
  (fun n A B =>
     match B with
     | Some _ => None
     | None =>
       X <- find (fun X => all_eq n n (mul Qs n (adj Qs X) X) (one Qs) &&
                           all_eq n n (mul Qs n A X) (mul Qs n X (diag Qs (fun i => mul Qs n (adj Qs X) (mul Qs n A X) i i)))) (eig n) ;
       Some ((fun i => mul Qs n (adj Qs X) (mul Qs n A X) i i), X)
     end)
  (fun n M =>
     d <- find (fun d => let '(U, Vt) := d in
            let s := fun i => mul Qs n (adj Qs U) (mul Qs n M (adj Qs Vt)) i i in
            all_eq n n M (mul Qs n U (mul Qs n (diag Qs s) Vt)) && all_eq n n (mul Qs n (adj Qs U) U) (one Qs) &&
            all_eq n n (mul Qs n (adj Qs Vt) Vt) (one Qs) && all_eq n n (mul Qs n (adj Qs (adj Qs Vt)) (adj Qs Vt)) (one Qs)) (svd n) ;
     let '(U, Vt) := d in
     Some (U, (fun i => mul Qs n (adj Qs U) (mul Qs n M (adj Qs Vt)) i i), Vt))
  (fun _ _ => None) (fun _ _ _ => None) (fun _ _ _ => None) (fun _ _ _ => None) (fun _ _ _ i => i).

Lemma try_hegv eig svd n : hegv_right Qs (try_kernels eig svd) n.
Proof.
  intros A B w X _ H. cbn [hegv try_kernels] in H. destruct B; [discriminate|].
  match type of H with context[@find ?T ?g ?l] => destruct (@find T g l) as [Y|] eqn:E end; [|discriminate]. apply find_some in E. destruct E as [_ E].
  cbn [bind] in H. injection H as <- <-. apply andb_true_iff in E. destruct E as [E1 E2].
  apply all_eq_ok in E1, E2. cbn [opt]. split.
  - rewrite (mul_1_l Qs Qs_laws). exact E2.
  - unfold orthonormal_in, form. rewrite (mul_1_l Qs Qs_laws). exact E1.
Qed.
Lemma try_gesvd eig svd n : gesvd_right Qs (try_kernels eig svd) n.
Proof.
  intros M U s Vt H. cbn [gesvd try_kernels] in H.
  match type of H with context[@find ?T ?g ?l] => destruct (@find T g l) as [[U0 Vt0]|] eqn:E end; [|discriminate]. apply find_some in E. destruct E as [_ E].
  cbn [bind] in H. injection H as <- <- <-. cbv zeta in E. rewrite !andb_true_iff in E.
  destruct E as (((E1 & E2) & E3) & E4). apply all_eq_ok in E1, E2, E3, E4.
  split; [exact E1|]. split; [exact E2|]. split; [exact E3|]. split; [exact E4|]. reflexivity.
Qed.
Lemma try_order eig svd n : order_right (try_kernels eig svd) n.
Proof. intros t w. split; cbn [order try_kernels]; auto. Qed.
Lemma try_potrf eig svd n : potrf_right Qs (try_kernels eig svd) n.
Proof. intros G C H. discriminate H. Qed.
Lemma try_lsolve eig svd n : lsolve_right Qs (try_kernels eig svd) n.
Proof. intros A B X H. discriminate H. Qed.
Lemma try_rsolve eig svd n : rsolve_right Qs (try_kernels eig svd) n.
Proof. intros A B X H. discriminate H. Qed.
