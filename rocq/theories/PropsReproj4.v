(** C51: cases that meet the hypotheses, and the restarts that lose the factorization. *)
From Coq Require Import List Arith Bool Lia Field Setoid Morphisms ZArith QArith Qcanon.
From Verif Require Import Base ProjModel SpecProj PropsProj MatAlg ExtractModel SpecExtract PropsExtract PropsExtract2
  ReprojModel SpecReproj PropsReproj PropsReproj2 PropsReproj3.
Import ListNotations.
Local Open Scope nat_scope.

Notation Qs := PropsProj.Qs.
Notation Qs_laws := PropsProj.Qs_laws.
Notation q := PropsProj.q.
Notation mxq := (nat -> nat -> Qc).

(** Tables of fractions a/d. *)
Definition ftab (d : Z) (l : list (list Z)) : mxq := fun i j => fr (nth j (nth i l nil) 0%Z) d.
Definition vtab (l : list Z) : nat -> Qc := fun i => q (nth i l 0%Z).
Ltac meq_compute := apply all_eq_ok; vm_compute; reflexivity.

(** ** Rayleigh-Ritz: the Ritz vector of the value 0 is kept, the other column of the
    new basis is retained from the previous iteration and comes first. *)
Definition yI := tab [[1;0;0];[0;1;0];[0;0;1]]%Z.
Definition yH := tab [[16;12;0];[0;9;0];[0;0;5]]%Z.
Definition yY := ftab 25 [[15;12];[-20;9];[0;20]]%Z.
Definition yK := try_kernels (fun n => [one Qs]) (fun n => []).
Definition swap2 (i : nat) : nat := 1 - i.

Example C51_case_restart_RR :
  exists H' w X, restart_RR Qs yK Smallest true false 3 2 1 1 yH yY (fun _ => q 0) swap2 None = Some (H', w, X) /\
  map (fun i => this (w i)) [0; 1] = [61 # 5; 0]%Q /\
  eigen_of Qs 2 (form Qs 3 (mul Qs 3 yI yY) xA (mul Qs 3 yI yY))
    (form Qs 3 (mul Qs 3 yI yY) (one Qs) (mul Qs 3 yI yY)) w X.
Proof.
  set (c := restart_RR Qs yK Smallest true false 3 2 1 1 yH yY (fun _ => q 0) swap2 None).
  destruct c as [[[H' w] X]|] eqn:E.
  - exists H', w, X. split; [reflexivity|]. split.
    + assert (G : match c with Some (_, w, _) => map (fun i => this (w i)) [0; 1] | None => [] end = [61 # 5; 0]%Q)
        by (vm_compute; reflexivity). rewrite E in G. exact G.
    + destruct (C51_restart_RR Qs Qs_laws yK Smallest true false 3 3 2 1 1 xA (one Qs) yI yY yH (fun _ => q 0) swap2 None H' w X)
        as (_ & F & _); [exact x_herm| |lia| | | | | | |exact E|exact F].
      * intros i j Hj Hi. assert (Hi' : i < 3) by lia.
        destruct (lt3 i Hi') as [->|[->| ->]]; destruct (lt3 j Hj) as [->|[->| ->]]; try lia;
          apply Qc_is_canon; vm_compute; reflexivity.
      * intros j Hj Hk. assert (j = 0) by (unfold kept in Hk; lia). subst j. split.
        -- intros k Hk'. destruct (lt3 k Hk') as [->|[->| ->]]; apply Qc_is_canon; vm_compute; reflexivity.
        -- intros k Hk'. destruct (lt2 k Hk') as [->| ->]; apply Qc_is_canon; vm_compute; reflexivity.
      * intros i j _ _. apply (adj_one Qs Qs_laws).
      * meq_compute.
      * unfold permutes, swap2. split; intros; lia.
      * exists 0. split; [lia|]. intros u Hu. assert (u = 0) by lia. subst u. reflexivity.
      * intros m _. split; [apply try_hegv|apply try_order].
  - exfalso. assert (G : match c with Some _ => true | None => false end = true) by (vm_compute; reflexivity).
    rewrite E in G. discriminate.
Qed.

(** ** Refined: A = diag(9, -16, 25), tau = 0; the first two coefficient vectors are a
    rotation of the singular vectors. *)
Definition zA := tab [[9;0;0];[0;-16;0];[0;0;25]]%Z.
Definition zU := tab [[1;0;0];[0;-1;0];[0;0;1]]%Z.
Definition zs := vtab [9;16;25]%Z.
Definition zRot := ftab 5 [[4;3;0];[-3;4;0];[0;0;0]]%Z.
Definition zhV := ftab 5 [[4;3;0];[-3;4;0];[0;0;5]]%Z.

Lemma z_state : refined_state Qs 3 3 zA yI (q 0) yI zA zU zs yI.
Proof. split; [|split; [|split; [|split; [|split]]]]; meq_compute. Qed.
Lemma z_rotated : rotated Qs 3 2 zRot yI zhV.
Proof.
  split; [lia|]. split; [split; meq_compute|]. split; [|meq_compute].
  intros r c Hc Hr Hr'. assert (r = 2) by lia. subst r. destruct (lt2 c Hc) as [->| ->]; apply Qc_is_canon; vm_compute; reflexivity.
Qed.
Lemma z_svals r : r < 3 -> zs r <> k0 Qs /\ nonneg (zs r).
Proof.
  intros Hr. split.
  - intros E. apply (f_equal this) in E. destruct (lt3 r Hr) as [->|[->| ->]]; vm_compute in E; discriminate.
  - destruct (lt3 r Hr) as [->|[->| ->]]; vm_compute; reflexivity.
Qed.
Lemma z_herm : hermitian Qs 3 zA.
Proof. unfold hermitian. meq_compute. Qed.
Lemma z_H : holds_upper 3 zA (form Qs 3 yI zA yI).
Proof.
  intros i j Hj Hi. assert (Hi' : i < 3) by lia.
  destruct (lt3 i Hi') as [->|[->| ->]]; destruct (lt3 j Hj) as [->|[->| ->]]; try lia; apply Qc_is_canon; vm_compute; reflexivity.
Qed.

(** The first coefficient vector is kept; the retained one is orthogonal to it only
    (ipBefore = 1 < 2 arbitrary vectors). *)
Definition zY1 := ftab 5 [[4;3];[-3;4];[0;0]]%Z.
Definition zqr1 := qr_try (fun m V b1 b2 => if b1 =? 0 then (ftab 5 [[3];[-4]], tab [[12]])%Z
                                            else (ftab 5 [[0;4];[0;-3];[0;0]], tab [[0;-7];[0;12]])%Z).
Definition zK1 := try_kernels (fun n => []) (fun n => [(ftab 5 [[4;3];[-3;4]], ftab 5 [[3;-4];[4;3]])]%Z).
Example C51_case_restart_refined :
  exists st, restart_refined Qs zK1 zqr1 ClosestAbs true 3 2 1 1 1 zA yI zA zU zY1 zs zs (fun i => i) (fun i => i) (fun i => i)
               2 zRot None None None None = Some st /\
  map (fun i => this (rSVals st i)) [0; 1] = [9; 16]%Q /\ rArb st = 2 /\
  exists X, refined_state Qs 3 2 zA (mul Qs 3 yI zY1) (q 0) (rQ st) (rR st) (rhU st) (rSVals st) X /\
            rotated Qs 2 (rArb st) (rRot st) X (rhVecs st).
Proof.
  set (c := restart_refined Qs zK1 zqr1 ClosestAbs true 3 2 1 1 1 zA yI zA zU zY1 zs zs (fun i => i) (fun i => i) (fun i => i)
               2 zRot None None None None).
  destruct c as [st|] eqn:E.
  - exists st. split; [reflexivity|].
    assert (G : match c with Some st => (map (fun i => this (rSVals st i)) [0; 1], rArb st) | None => ([], 0) end = ([9; 16]%Q, 2))
      by (vm_compute; reflexivity). rewrite E in G.
    assert (G1 : map (fun i => this (rSVals st i)) [0; 1] = [9; 16]%Q) by (apply (f_equal fst) in G; exact G).
    assert (G2 : rArb st = 2) by (apply (f_equal snd) in G; exact G).
    split; [exact G1|]. split; [exact G2|].
    destruct (C51_restart_refined Qs Qs_laws zK1 zqr1 nonneg ClosestAbs true 3 3 2 1 1 1 zA yI (q 0) zA yI zA zU yI zhV zY1 zs zs
      (fun i => i) (fun i => i) (fun i => i) 2 zRot None st) as (_ & _ & hv & F1 & _ & _ & F2);
      [exact z_herm|exact z_H|exact z_state|exact z_rotated|exact z_svals|lia| | | | | | | | | | | |exact E|].
    + split; intros i Hi; auto.
    + intros i r Hi Hr _. assert (i = 0) by lia. subst i. destruct (lt3 r Hr) as [->|[->| ->]]; apply Qc_is_canon; vm_compute; reflexivity.
    + intros i j Hi Hj; lia.
    + intros u Hu. lia.
    + intros; lia.
    + apply qr_try_right.
    + exact nonneg_Qc.
    + apply try_gesvd.
    + apply try_potrf.
    + apply try_lsolve.
    + apply try_rsolve.
    + eexists. split; [exact F1|]. apply F2. rewrite G2. intros i j Hi Hj. lia.
  - exfalso. assert (G : match c with Some _ => true | None => false end = true) by (vm_compute; reflexivity).
    rewrite E in G. discriminate.
Qed.

(** The retained vector is orthogonal to both arbitrary vectors (ipBefore = 2): the
    row of R is set to zero and one vector remains arbitrary. *)
Definition zY2 := ftab 5 [[4;0];[-3;0];[0;5]]%Z.
Definition zqr2 := qr_try (fun m V b1 b2 => if b1 =? 0 then (ftab 5 [[3];[-4]], tab [[12]])%Z
                                            else (ftab 5 [[0;0];[0;0];[0;5]], tab [[0;0];[0;25]])%Z).
Definition zK2 := try_kernels (fun n => []) (fun n => [(tab [[0;1];[1;0]], tab [[0;1];[1;0]])]%Z).
Example C51_case_restart_refined_diagonal :
  exists st, restart_refined Qs zK2 zqr2 ClosestAbs true 3 2 1 1 2 zA yI zA zU zY2 zs zs (fun i => i) (fun i => i) (fun i => i)
               2 zRot None None None None = Some st /\
  map (fun i => this (rSVals st i)) [0; 1] = [12; 25]%Q /\ rArb st = 1 /\
  exists X, refined_state Qs 3 2 zA (mul Qs 3 yI zY2) (q 0) (rQ st) (rR st) (rhU st) (rSVals st) X.
Proof.
  set (c := restart_refined Qs zK2 zqr2 ClosestAbs true 3 2 1 1 2 zA yI zA zU zY2 zs zs (fun i => i) (fun i => i) (fun i => i)
               2 zRot None None None None).
  destruct c as [st|] eqn:E.
  - exists st. split; [reflexivity|].
    assert (G : match c with Some st => (map (fun i => this (rSVals st i)) [0; 1], rArb st) | None => ([], 0) end = ([12; 25]%Q, 1))
      by (vm_compute; reflexivity). rewrite E in G.
    assert (G1 : map (fun i => this (rSVals st i)) [0; 1] = [12; 25]%Q) by (apply (f_equal fst) in G; exact G).
    assert (G2 : rArb st = 1) by (apply (f_equal snd) in G; exact G).
    split; [exact G1|]. split; [exact G2|].
    destruct (C51_restart_refined Qs Qs_laws zK2 zqr2 nonneg ClosestAbs true 3 3 2 1 1 2 zA yI (q 0) zA yI zA zU yI zhV zY2 zs zs
      (fun i => i) (fun i => i) (fun i => i) 2 zRot None st) as (_ & _ & hv & F1 & _ & _ & F2);
      [exact z_herm|exact z_H|exact z_state|exact z_rotated|exact z_svals|lia| | | | | | | | | | | |exact E|].
    + split; intros i Hi; auto.
    + intros i r Hi Hr _. assert (i = 0) by lia. subst i. destruct (lt3 r Hr) as [->|[->| ->]]; apply Qc_is_canon; vm_compute; reflexivity.
    + intros i j Hi Hj; lia.
    + intros u Hu. lia.
    + intros _. split; [lia|]. split; [intros i Hi; unfold perm0; lia|].
      intros d u Hd Hu. assert (u = 0) by lia. subst u. destruct (lt2 d Hd) as [->| ->]; apply Qc_is_canon; vm_compute; reflexivity.
    + apply qr_try_right.
    + exact nonneg_Qc.
    + apply try_gesvd.
    + apply try_potrf.
    + apply try_lsolve.
    + apply try_rsolve.
    + eexists. exact F1.
  - exfalso. assert (G : match c with Some _ => true | None => false end = true) by (vm_compute; reflexivity).
    rewrite E in G. discriminate.
Qed.

(** ** Refined with a singular value that is zero (the shift is an eigenvalue whose
    vector is in the basis): its left vector is replaced by one that overlaps with the
    following ones, and the columns of R that are set to diagonal are wrong. *)
Definition wA := tab [[0;0];[0;4]]%Z.
Definition w2 := tab [[1;0];[0;1]]%Z.
Definition wqr := qr_try (fun m V b1 b2 => (tab [[0;1];[1;0]], tab [[0;4];[0;0]])%Z).
Definition wK := try_kernels (fun n => []) (fun n => [(tab [[0;1];[1;0]], tab [[0;1];[1;0]])]%Z).
Theorem C51_restart_refined_zero_refuted :
  exists (LK : kernels Qc) (f : qr_local Qc) N n A V tau Q R U s X st,
    (forall m, gesvd_right Qs LK m) /\ qr_right Qs nonneg f /\
    refined_state Qs N n A V tau Q R U s X /\ rotated Qs n 0 (one Qs) X X /\
    restart_refined Qs LK f ClosestAbs true n n 0 n n A Q R U X s s (fun i => i) (fun i => i) (fun i => i) 0 (one Qs)
      None None None None = Some st /\
    ~ factored Qs N n A (mul Qs n V X) (mul Qs n V X) tau (rQ st) (rR st).
Proof.
  set (c := restart_refined Qs wK wqr ClosestAbs true 2 2 0 2 2 wA w2 wA w2 w2 (vtab [0;4]%Z) (vtab [0;4]%Z)
              (fun i => i) (fun i => i) (fun i => i) 0 (one Qs) None None None None).
  destruct c as [st|] eqn:E.
  - exists wK, wqr, 2, 2, wA, w2, (q 0), w2, wA, w2, (vtab [0;4]%Z), w2, st.
    split; [intros m; apply try_gesvd|]. split; [apply qr_try_right|].
    split; [split; [|split; [|split; [|split; [|split]]]]; meq_compute|].
    split; [split; [lia|]; split; [split; meq_compute|]; split; [intros r d Hd; lia|meq_compute]|].
    split; [exact E|]. intros F. specialize (F 1 1 ltac:(lia) ltac:(lia)). apply (f_equal this) in F.
    assert (G : match c with Some st => Qeq_bool (this (msub Qs (mul Qs 2 wA (mul Qs 2 w2 w2)) (scale Qs (q 0) (mul Qs 2 w2 w2)) 1 1))
                                     (this (mul Qs 2 (rQ st) (rR st) 1 1)) | None => true end = false) by (vm_compute; reflexivity).
    rewrite E in G. rewrite F in G. rewrite Qeq_bool_refl in G. discriminate.
  - exfalso. assert (G : match c with Some _ => true | None => false end = true) by (vm_compute; reflexivity).
    rewrite E in G. discriminate.
Qed.

(** ** Refined with the explicit inner product: Q is kept with Q'Q = QtQ and not
    orthonormal.  The first orthonormalization is done in the inner product of QtQ and
    the factor of QtQ is divided out once more: with one vector, A = 4 and
    Q R = 2 * 2, the new product is 2. *)
Definition vK : kernels Qc := Kernels (fun _ _ _ => None)
  (fun n M => if n =? 1 then Some ((fun _ _ => 1%Qc), (fun _ => M 0 0), (fun _ _ => 1%Qc)) else None)
  (fun n G => if (n =? 1) && Qc_eq_bool (G 0 0) (fr 1 4) then Some (fun _ _ => fr 1 2) else None)
  (fun _ _ _ => None)
  (fun n A B => if (n =? 1) && negb (Qc_eq_bool (A 0 0) 0%Qc) then Some (fun i j => Qcdiv (B i j) (A 0 0)) else None)
  (fun _ _ _ => None) (fun _ _ _ i => i).
Definition v1 (z : Z) : mxq := fun _ _ => q z.
Definition vqr := qr_try (fun m V b1 b2 => ((fun _ _ => fr 1 2), v1 8)).
Lemma vK_gesvd n : gesvd_right Qs vK n.
Proof.
  intros M U s Vt H. cbn [gesvd vK] in H. destruct (Nat.eqb_spec n 1) as [->|]; [|discriminate]. injection H as <- <- <-.
  repeat split; try (intros i j Hi Hj; assert (i = 0) by lia; assert (j = 0) by lia; subst; unfold mul, adj, diag, one; cbn; ring).
Qed.
Lemma vK_potrf n : potrf_right Qs vK n.
Proof.
  intros G C H. cbn [potrf vK] in H. destruct (Nat.eqb_spec n 1) as [->|]; [|discriminate]. cbn [andb] in H.
  destruct (Qc_eq_bool _ _) eqn:E; [|discriminate]. apply Qc_eq_bool_correct in E. injection H as <-.
  intros i j Hi Hj. assert (i = 0) by lia; assert (j = 0) by lia; subst. rewrite E. apply Qc_is_canon. vm_compute. reflexivity.
Qed.
Lemma vK_rsolve n : rsolve_right Qs vK n.
Proof.
  intros A B X H. cbn [rsolve vK] in H. destruct (Nat.eqb_spec n 1) as [->|]; [|discriminate]. cbn [andb] in H.
  destruct (Qc_eq_bool _ _) eqn:E; [discriminate|]. cbn [negb] in H. injection H as <-.
  assert (Hd : A 0 0 <> 0%Qc) by (intros E0; rewrite E0 in E; revert E; vm_compute; discriminate).
  split.
  - exists (fun _ _ => Qcdiv 1%Qc (A 0 0)). split; intros i j Hi Hj; assert (i = 0) by lia; assert (j = 0) by lia; subst;
      unfold mul, one; cbn; field; exact Hd.
  - intros i j Hi Hj; assert (i = 0) by lia; assert (j = 0) by lia; subst; unfold mul; cbn; field; exact Hd.
Qed.

Theorem C51_restart_refined_explicit_refuted :
  exists (LK : kernels Qc) (f : qr_local Qc) (A V Q R U X G C G' : mxq) s st,
    (forall m, gesvd_right Qs LK m /\ potrf_right Qs LK m /\ rsolve_right Qs LK m) /\ qr_right_in Qs G nonneg f /\
    (** A V = Q R, Q'Q = G = C'C, and C R X = U diag(s) *)
    factored Qs 1 1 A V V (q 0) Q R /\ gram Qs 1 1 Q G /\ gram Qs 1 1 C G /\
    meq 1 1 (mul Qs 1 (mul Qs 1 C R) X) (mul Qs 1 U (diag Qs s)) /\ unitary Qs 1 U /\ unitary Qs 1 X /\ nonneg (s 0) /\
    restart_refined Qs LK f ClosestAbs true 1 1 0 1 1 A Q R U X s s (fun i => i) (fun i => i) (fun i => i) 0 (one Qs)
      (Some G) (Some C) (Some G') None = Some st /\
    gram Qs 1 1 (rQ st) G' /\
    ~ factored Qs 1 1 A (mul Qs 1 V X) (mul Qs 1 V X) (q 0) (rQ st) (rR st).
Proof.
  set (c := restart_refined Qs vK vqr ClosestAbs true 1 1 0 1 1 (v1 4) (v1 2) (v1 2) (v1 1) (v1 1) (fun _ => q 4) (fun _ => q 4)
              (fun i => i) (fun i => i) (fun i => i) 0 (one Qs) (Some (v1 4)) (Some (v1 2)) (Some (fun _ _ => fr 1 4)) None).
  destruct c as [st|] eqn:E.
  - exists vK, vqr, (v1 4), (v1 1), (v1 2), (v1 2), (v1 1), (v1 1), (v1 4), (v1 2), (fun _ _ => fr 1 4), (fun _ => q 4), st.
    split; [intros m; auto using vK_gesvd, vK_potrf, vK_rsolve|]. split; [apply qr_try_right_in|].
    split; [unfold factored; meq_compute|]. split; [unfold gram; meq_compute|]. split; [unfold gram; meq_compute|].
    split; [meq_compute|]. split; [split; unfold gram; meq_compute|]. split; [split; unfold gram; meq_compute|].
    split; [vm_compute; reflexivity|].
    split; [exact E|]. split.
    + assert (G : match c with Some st => all_eq 1 1 (mul Qs 1 (adj Qs (rQ st)) (rQ st)) (fun _ _ => fr 1 4) | None => false end = true)
        by (vm_compute; reflexivity). rewrite E in G. apply all_eq_ok. exact G.
    + intros F. specialize (F 0 0 ltac:(lia) ltac:(lia)). apply (f_equal this) in F.
      assert (G : match c with Some st => Qeq_bool (this (msub Qs (mul Qs 1 (v1 4) (mul Qs 1 (v1 1) (v1 1))) (scale Qs (q 0) (mul Qs 1 (v1 1) (v1 1))) 0 0))
                                     (this (mul Qs 1 (rQ st) (rR st) 0 0)) | None => true end = false) by (vm_compute; reflexivity).
      rewrite E in G. rewrite F in G. rewrite Qeq_bool_refl in G. discriminate.
  - exfalso. assert (G : match c with Some _ => true | None => false end = true) by (vm_compute; reflexivity).
    rewrite E in G. discriminate.
Qed.

(** ** Harmonic: the new basis is made of the two Ritz vectors, tau = 9. *)
Definition h_ortho : ortho Qc := fun N Q R b1 b2 =>
  if b1 <=? b2 then
    option_map (fun d => (fst d, snd d, b2))
      (qr_try (fun _ _ _ _ => (ftab 5 [[-3;4];[4;3];[0;0]], tab [[9;0];[0;16]])%Z) N Q R b1 b2 None)
  else None.
Lemma h_ortho_right N : ortho_right Qs N h_ortho.
Proof.
  intros Q R b1 b2 Q' R' m H. unfold h_ortho in H. destruct (Nat.leb_spec b1 b2); [|discriminate].
  destruct (qr_try _ N Q R b1 b2 None) as [[Z T]|] eqn:E; [|discriminate]. cbn [option_map fst snd] in H. injection H as <- <- <-.
  destruct (qr_try_right _ _ _ _ _ _ _ _ E) as (A & B & C & D & _ & F).
  split; [lia|]. split; [exact A|]. split; [exact B|]. split; [|exact F]. intros r c Hc Hr. apply C; lia.
Qed.
Definition hK : kernels Qc := Kernels (hegv (try_kernels (fun n => [one Qs]) (fun n => []))) (gesvd xK) (potrf xK) (lsolve xK) (rsolve xK)
  (fun n X G => match n, G with
     | 2, None => if zero_at X 1 0 then Some (one Qs) else None
     | _, _ => None end) (order xK).
Lemma hK_bortho n : bortho_right Qs hK n None.
Proof.
  intros X Y H. cbn [bortho hK] in H. destruct n as [|[|[|n]]]; try discriminate.
  destruct (zero_at X 1 0) eqn:E; [|discriminate]. apply zero_at_ok in E. injection H as <-. split.
  - unfold orthonormal_in, form. cbn [opt]. rewrite (adj1 Qs Qs_laws). rewrite !(mul_1_l Qs Qs_laws). reflexivity.
  - exists X. split; [|symmetry; apply (mul_1_l Qs Qs_laws)].
    intros i j Hi Hj Hij. cases2 i j Hi Hj; try lia. exact E.
Qed.
Definition hVn := mul Qs 2 xV xE.
Example C51_case_restart_harmonic :
  exists H' Q' R' QtV e,
    restart_harmonic Qs hK h_ortho ClosestAbs true 3 2 2 xH xE hVn hVn (mul Qs 3 xA hVn) xV xR (q 9) None None (fun _ => q 0)
      = Some (H', Q', R', QtV, e) /\
  map (fun i => (this (hVals e i), this (R' i i))) [0; 1] = [(0, 9); (25, 16)]%Q /\
  factored Qs 3 2 xA hVn hVn (q 9) Q' R' /\ gram Qs 3 2 (mul Qs 2 hVn (hVecs e)) (one Qs).
Proof.
  set (c := restart_harmonic Qs hK h_ortho ClosestAbs true 3 2 2 xH xE hVn hVn (mul Qs 3 xA hVn) xV xR (q 9) None None (fun _ => q 0)).
  destruct c as [[[[[H' Q'] R'] QtV] e]|] eqn:E.
  - exists H', Q', R', QtV, e. split; [reflexivity|]. split.
    + assert (G : match c with Some (_, _, R', _, e) => map (fun i => (this (hVals e i), this (R' i i))) [0; 1] | None => [] end
                = [(0, 9); (25, 16)]%Q) by (vm_compute; reflexivity). rewrite E in G. exact G.
    + destruct (C51_restart_harmonic Qs Qs_laws hK h_ortho ClosestAbs true 3 2 2 xA xV xE xH (mul Qs 3 xA hVn) xV xR (q 9) None
        (fun _ => q 0) H' Q' R' QtV e x_herm eq_refl x_H (meq_refl _ _ _)) as (_ & F1 & _ & _ & F2 & _);
        [unfold gram; meq_compute|apply h_ortho_right|apply try_hegv|apply xK_order|apply xK_lsolve|apply hK_bortho|exact E|].
      split; [exact F1|exact F2].
  - exfalso. assert (G : match c with Some _ => true | None => false end = true) by (vm_compute; reflexivity).
    rewrite E in G. discriminate.
Qed.
