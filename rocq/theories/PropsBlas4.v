(** C55: the exceptions and cases. *)
From Coq Require Import List Arith Bool Lia Field Setoid ZArith QArith Qcanon Lqa.
From Verif Require Import Base ProjModel SpecProj MatAlg BlasModel SpecBlas PropsBlas PropsBlas2 PropsBlas3 PropsProj PropsQmr4.
Import ListNotations.
Local Open Scope nat_scope.

(** ** The complex numbers with rational parts. *)
Definition gq : Type := (Qc * Qc)%type.
Definition gre (a : gq) : Qc := Datatypes.fst a.
Definition gim (a : gq) : Qc := Datatypes.snd a.
Definition gadd (a b : gq) : gq := (gre a + gre b, gim a + gim b)%Qc.
Definition gopp (a : gq) : gq := (- gre a, - gim a)%Qc.
Definition gsub (a b : gq) : gq := (gre a - gre b, gim a - gim b)%Qc.
Definition gmul (a b : gq) : gq := (gre a * gre b - gim a * gim b, gre a * gim b + gim a * gre b)%Qc.
Definition gnorm (a : gq) : Qc := (gre a * gre a + gim a * gim a)%Qc.
Definition ginv (a : gq) : gq := (gre a / gnorm a, - gim a / gnorm a)%Qc.
Definition gconj (a : gq) : gq := (gre a, - gim a)%Qc.
Definition gzero (a : gq) : bool := Qc_eq_bool (gre a) 0%Qc && Qc_eq_bool (gim a) 0%Qc.
Definition Gs : scal gq := Scal gq (0, 0)%Qc (1, 0)%Qc gadd gmul gsub gopp (fun a b => gmul a (ginv b)) ginv gconj gzero.

Lemma Qc_squares a b : (a * a + b * b = 0)%Qc -> a = 0%Qc /\ b = 0%Qc.
Proof.
  intros H.
  assert (Hq : (this a * this a + this b * this b == 0)%Q).
  { apply (f_equal this) in H. cbn [this Qcplus Qcmult Q2Qc] in H.
    rewrite <- (Qred_correct (this a * this a)), <- (Qred_correct (this b * this b)), <- Qred_correct, H.
    reflexivity. }
  split; apply Qc_is_canon; cbn; nra.
Qed.
Lemma Gs_laws : laws Gs.
Proof.
  split.
  - constructor.
    + constructor; intros; unfold Gs; cbn; unfold gadd, gmul, gsub, gopp; cbn [gre gim Datatypes.fst Datatypes.snd];
        try (destruct x as [xr xi]); try (destruct y as [yr yi]); try (destruct z as [zr zi]);
        cbn [gre gim Datatypes.fst Datatypes.snd]; f_equal; ring.
    + cbn. intros E. injection E. discriminate.
    + reflexivity.
    + intros [a b] Hp. cbn in *. unfold gmul, ginv, gnorm. cbn [gre gim Datatypes.fst Datatypes.snd].
      assert (Hn : (a * a + b * b)%Qc <> 0%Qc).
      { intros E. apply Qc_squares in E. destruct E as [-> ->]. apply Hp. reflexivity. }
      f_equal; field; exact Hn.
  - intros [a b] [c d]. cbn. unfold gconj, gadd. cbn [gre gim Datatypes.fst Datatypes.snd]. f_equal; ring.
  - intros [a b] [c d]. cbn. unfold gconj, gmul. cbn [gre gim Datatypes.fst Datatypes.snd]. f_equal; ring.
  - intros [a b]. cbn. unfold gconj. cbn [gre gim Datatypes.fst Datatypes.snd]. f_equal; ring.
  - cbn. unfold gconj. cbn. f_equal.
  - intros [a b]. cbn. unfold gzero. cbn [gre gim Datatypes.fst Datatypes.snd]. rewrite andb_true_iff. split.
    + intros [H1 H2]. apply Qc_eq_bool_correct in H1. apply Qc_eq_bool_correct in H2. subst. reflexivity.
    + intros E. injection E as -> ->. split; reflexivity.
Qed.

Lemma Gs_complex : real_build Gs true.
Proof. intros H. discriminate. Qed.
Lemma Qs_real : real_build Qs false.
Proof. intros _ a. reflexivity. Qed.

(** ** Exceptions. *)

(** Sizes that BLAS cannot represent are reported, never truncated. *)
Theorem C55_too_large : forall {K} (o : scal K) cplx bmax kcode ta tb m n k alpha a lda b ldb beta c ldc,
  bmax < m \/ bmax < n \/ bmax < k \/ bmax < lda \/ bmax < ldb \/ bmax < ldc ->
  gemm o cplx bmax kcode ta tb m n k alpha a lda b ldb beta c ldc = Fails.
Proof.
  intros K o cplx bmax kcode ta tb m n k alpha a lda b ldb beta c ldc H. unfold gemm, in_blas_int.
  assert (E : (m <=? bmax) && (n <=? bmax) && (k <=? bmax) && (lda <=? bmax) && (ldb <=? bmax) && (ldc <=? bmax) = false).
  { rewrite !andb_false_iff, !Nat.leb_gt. lia. }
  rewrite E. reflexivity.
Qed.

(** In the complex build a product with one row and one column conjugates the
    first factor although no conjugation was asked for. *)
Theorem C55_one_row_refuted :
  (forall {K} (o : scal K), laws o -> forall bmax kcode k alpha a lda b ldb beta c ldc, 2 <= bmax -> 1 <= k < bmax ->
     1 <= lda <= bmax -> k <= ldb <= bmax -> 1 <= ldc <= bmax -> alpha <> k0 o -> beta <> k0 o ->
     exists c', gemm o true bmax kcode trN trN 1 1 k alpha a lda b ldb beta c ldc = Done c' /\
       c' 0 = kadd o (kmul o alpha (sum o k (fun l => kmul o (kconj o (stored a lda 0 l)) (stored b ldb l 0))))
                (kmul o beta (c 0))) /\
  (forall bmax kcode, 2 <= bmax -> exists a b c c',
     gemm Gs true bmax kcode trN trN 1 1 1 (k1 Gs) a 1 b 1 (k0 Gs) c 1 = Done c' /\
     c' 0 <> kmul Gs (a 0) (b 0)).
Proof.
  split.
  - intros K o L bmax kcode k alpha a lda b ldb beta c ldc Hb Hk Hla Hlb Hlc Ha Hbt.
    unfold gemm. rewrite !in_int by lia. cbn [negb andb orb Nat.eqb isC isN].
    rewrite (proj2 (Nat.eqb_neq k 0)) by lia.
    assert (Hz : forall z, z <> k0 o -> iszero o z = false).
    { intros z Hz. unfold iszero. destruct (kzero o z) eqn:E; auto. apply (l_zero o L) in E. contradiction. }
    rewrite (Hz _ Ha). cbn [orb]. unfold gemv. rewrite !in_int by lia. cbn [negb andb isN Nat.eqb].
    rewrite (proj2 (Nat.eqb_neq k 0)) by lia. rewrite (Hz _ Ha), (Hz _ Hbt). cbn [orb].
    eexists. split; [reflexivity|]. cbn [Nat.eqb]. unfold num_dot.
    rewrite (Radd_comm (F_R (l_field o L))).
    f_equal; [|apply (Rmul_comm (F_R (l_field o L)))]. rewrite (Rmul_comm (F_R (l_field o L))). f_equal.
    apply sum_ext. intros l _. unfold stored. rewrite Nat.mul_1_r, !Nat.add_0_r. reflexivity.
  - intros bmax kcode Hb. exists (fun _ => (0, 1)%Qc), (fun _ => (1, 0)%Qc), (fun _ => (0, 0)%Qc).
    unfold gemm, gemv. cbn [isN]. rewrite !in_int by lia.
    assert (E1 : iszero Gs (k1 Gs) = false) by (vm_compute; reflexivity).
    assert (E0 : iszero Gs (k0 Gs) = true) by (vm_compute; reflexivity).
    rewrite E1, E0. cbn [negb andb orb Nat.eqb isC].
    eexists. split; [reflexivity|]. cbn [Nat.eqb]. intros E. apply (f_equal gim) in E. vm_compute in E. discriminate.
Qed.

(** A process without rows leaves its part of the inner products as it was: the
    projector then depends on the contents of memory just allocated. *)
Theorem C55_empty_process_refuted :
  (forall {K} (o : scal K), laws o -> forall cplx bmax pbs kcode same up junk m n alpha a lda b ldb beta c ldc,
     beta <> k1 o -> 1 <= m -> 1 <= n ->
     gemm_ddh o cplx bmax pbs kcode same up junk trC trN m n 0 alpha a lda b ldb beta c ldc = Done c) /\
  (forall bmax pbs kcode junk, 4 <= bmax -> forall g : Qc, exists v',
     skew_projector Qs false bmax pbs kcode true (fun a => a) (fun a => a) junk 2 (fun p => if p =? 0 then 1 else 0)
       (fun _ _ => 1%Qc) (fun _ => 1) (fun _ _ => 1%Qc) (fun _ => 1) (fun s => s) 1
       (fun _ _ => 1%Qc) (fun _ => 1) 1 (fun _ _ => g) = Some v' /\ v' 0 0 = (- g)%Qc).
Proof.
  split.
  - intros K o L cplx bmax pbs kcode same up junk m n alpha a lda b ldb beta c ldc Hbt Hm Hn. unfold gemm_ddh.
    rewrite (proj2 (Nat.eqb_neq m 0)), (proj2 (Nat.eqb_neq n 0)) by lia. cbn [orb Nat.eqb andb].
    destruct (isone o beta) eqn:E; reflexivity.
  - intros bmax pbs kcode junk Hb g.
    assert (E1 : iszero Qs (k1 Qs) = false) by (vm_compute; reflexivity).
    assert (E0 : iszero Qs (k0 Qs) = true) by (vm_compute; reflexivity).
    assert (E2 : iszero Qs (kopp Qs (k1 Qs)) = false) by (vm_compute; reflexivity).
    assert (E3 : isone Qs (k0 Qs) = false) by (vm_compute; reflexivity).
    assert (E4 : isone Qs (k1 Qs) = true) by (vm_compute; reflexivity).
    eexists. split.
    + unfold skew_projector, gather, gemm_ddh, gemm_dhd. cbn [Nat.eqb orb negb andb astype isN].
      unfold ddh_from, gemm, gemv. cbn [isN]. rewrite !in_int by lia.
      rewrite ?E1, ?E0, ?E2, ?E3, ?E4. cbn [negb andb orb Nat.eqb isC Nat.ltb Nat.leb rbind isN Nat.min Nat.sub Nat.add].
      reflexivity.
    + cbn [Nat.eqb]. unfold global_sum, back, num_dot, shift. rewrite !in_int by lia.
      cbn [andb dot_from Nat.eqb]. replace (Nat.min 1 (bmax - 1)) with 1 by lia. unfold xdot, shift. cbn. ring.
Qed.

(** With a leading dimension larger than the number of rows the pass of the
    orthonormalisation reads the padding in place of the second column: the
    vector e2 stays as it is although e2 is in the basis. *)
Theorem C55_leading_refuted : forall bmax kcode junk, 8 <= bmax -> forall g h : Qc,
  let V := (fun q => nth q [1; 0; g; 0; 1; h] 0)%Qc in
  let x := (fun q => if q =? 1 then 1 else 0)%Qc in
  (forall i j, i < 2 -> j < 2 -> sum Qs 2 (fun r => stored V 3 r i * stored V 3 r j)%Qc = (if i =? j then 1 else 0)%Qc) /\
  exists ov x', ortho_pass Qs false bmax kcode true (fun a => a) (fun a => a) junk 1 (fun _ => 2)
     (fun _ => V) (fun _ => 3) 2 (fun _ => V) (fun _ => 3) 0 (fun _ => x) (fun _ => x) = Some (ov, x') /\
     x' 0 0 = 0%Qc /\ x' 0 1 = 1%Qc /\ ov 1 = 0%Qc.
Proof.
  intros bmax kcode junk Hb g h V x. split.
  - intros i j Hi Hj. destruct i as [|[|i]]; destruct j as [|[|j]]; try lia; unfold V; cbn; ring.
  - unfold ortho_pass, gather, gemv_ddh, gemv_dhd. cbn [Nat.ltb Nat.leb astype isN].
    unfold gemv. rewrite !in_int by lia. cbn [negb andb isN Nat.eqb orb].
    unfold gemv_from. replace (Nat.min 2 (bmax - 1)) with 2 by lia.
    cbn -[nth Qcplus Qcmult].
    eexists. eexists. split; [reflexivity|]. unfold global_sum, V, x. cbn. repeat split; ring.
Qed.

(** From the largest number of elements of one BLAS call on, an increment other
    than one scales other elements than those asked for. *)
Theorem C55_long_refuted : forall {K} (o : scal K) bmax alpha x, 2 <= bmax ->
  kmul o alpha (x ((bmax - 1) * 2)) <> x ((bmax - 1) * 2) ->
  exists x', num_scal o bmax bmax alpha x 2 = Done x' /\
    x' ((bmax - 1) * 2) <> kmul o alpha (x ((bmax - 1) * 2)).
Proof.
  intros K o bmax alpha x Hb Hne. unfold num_scal. rewrite in_int by lia. eexists. split; [reflexivity|].
  destruct bmax as [|[|b]]; try lia. set (B := S (S b)) in *.
  change (scal_from o B B B alpha x 0 2) with
    (if B =? 0 then x else let ln := Nat.min B (B - 1) in scal_from o B (S b) (B - ln) alpha (xscal o ln alpha x 0 2) (0 + ln) 2).
  rewrite (proj2 (Nat.eqb_neq B 0)) by lia. cbv zeta. replace (Nat.min B (B - 1)) with (B - 1) by lia.
  rewrite scal_from_ok by lia.
  assert (E1 : hit (0 + (B - 1)) 2 (B - (B - 1)) ((B - 1) * 2) = false) by (apply hit_false; lia).
  assert (E2 : hit 0 2 (B - 1) ((B - 1) * 2) = false) by (apply hit_false; lia).
  rewrite E1. unfold xscal. rewrite E2. congruence.
Qed.

(** ** Cases. *)

Definition gi (a b : Z) : gq := (Q2Qc (inject_Z a), Q2Qc (inject_Z b)).
Definition glist (l : list (Z * Z)) : nat -> gq := fun q => match nth_error l q with Some (a, b) => gi a b | None => gi 0 0 end.

Lemma no_conv {K} b : @conversions K b (fun a => a) (fun a => a).
Proof. split; auto. Qed.

(** The inner products in pieces of two rows, complex, five rows, with two types. *)
Example C55_case_pieces :
  let x := glist [(1, 0); (0, 1); (2, 0); (0, -1); (1, 1); (7, 7)]%Z in
  let y := glist [(0, 1); (0, 1); (1, 0); (1, 0); (1, 1); (9, 9)]%Z in
  (exists c', gemm_ddh Gs true 16 2 (gi 0 0) false (fun a => a) (fun _ => gi 5 5) trC trN 1 1 5 (k1 Gs) x 6 y 6
                (k0 Gs) (fun _ => gi 3 3) 1 = Done c' /\ c' 0 = gi 5 2 /\ c' 1 = gi 3 3).
Proof.
  intros x y. eexists. split; [reflexivity|]. split; vm_compute; reflexivity.
Qed.

(** Two processes, with two rows and three rows. *)
Example C55_case_projector : forall kcode ovl, exists v',
  let nl := (fun p => if p =? 0 then 2 else 3) in
  let Q := (fun p => if p =? 0 then glist [(1, 0); (0, 1)]%Z else glist [(0, 0); (1, 0); (0, 0)]%Z) in
  let v := (fun p => if p =? 0 then glist [(3, 0); (0, 0)]%Z else glist [(0, 2); (0, 0); (5, 0)]%Z) in
  skew_projector Gs true 9 4 kcode false (fun a => a) (fun a => a) (fun _ => gi 1 1) 2 nl Q nl Q nl
      (fun s q => kdiv Gs (s q) (gi 3 0)) 1 v nl 1 ovl = Some v' /\
  forall p, p < 2 -> updated Gs (nl p) 1 (fun a => a) (fun a => a) (kopp Gs (k1 Gs))
        (mul Gs 1 (converted (fun a => a) (stored (Q p) (nl p))) (stored (fun q => kdiv Gs
           (inner_products Gs 2 nl (fun p => converted (fun a => a) (stored (Q p) (nl p)))
              (fun p => converted (fun a => a) (stored (v p) (nl p))) q 0) (gi 3 0)) 1))
        (k1 Gs) (v p) (nl p) (v' p).
Proof.
  intros kcode ovl.
  set (nl := (fun p => if p =? 0 then 2 else 3)).
  set (Q := (fun p => if p =? 0 then glist [(1, 0); (0, 1)]%Z else glist [(0, 0); (1, 0); (0, 0)]%Z)).
  set (v := (fun p => if p =? 0 then glist [(3, 0); (0, 0)]%Z else glist [(0, 2); (0, 0); (5, 0)]%Z)).
  cbv zeta.
  destruct (C55_projector Gs Gs_laws true 9 4 kcode ltac:(lia) ltac:(lia) Gs_complex false (fun a => a) (fun a => a) (fun _ => gi 1 1)
     (no_conv false) 2 nl Q nl Q nl (fun s q => kdiv Gs (s q) (gi 3 0)) 1 v nl 1 ovl) as (v' & E & H).
  - lia.
  - lia.
  - intros p Hp. unfold nl. destruct (p =? 0); lia.
  - intros _ _ p Hp. unfold nl. destruct (p =? 0); lia.
  - intros s s' Hs i j Hi Hj. rewrite Hs; auto.
  - exists v'. split; [exact E|]. intros p Hp.
    apply (H (fun q => inner_products Gs 2 nl (fun p => converted (fun a => a) (stored (Q p) (nl p)))
              (fun p => converted (fun a => a) (stored (v p) (nl p))) q 0)); auto.
    intros i j Hi Hj. replace j with 0 by lia. rewrite Nat.mul_0_l. reflexivity.
Qed.

(** The pass with a leading dimension larger than the rows is right with two types. *)
Example C55_case_pass : forall kcode,
  let V := glist [(1, 0); (0, 0); (8, 8); (0, 0); (0, 1); (8, 8)]%Z in
  let x := glist [(2, 0); (0, 3)]%Z in
  exists ov x', ortho_pass Gs true 9 kcode false (fun a => a) (fun a => a) (fun _ => gi 1 1) 1 (fun _ => 2)
     (fun _ => V) (fun _ => 3) 2 (fun _ => V) (fun _ => 3) 0 (fun _ => x) (fun _ => x) = Some (ov, x') /\
     ov 0 = gi 2 0 /\ ov 1 = gi 3 0 /\ x' 0 0 = gi 0 0 /\ x' 0 1 = gi 0 0.
Proof.
  intros kcode V x. do 2 eexists. split; [reflexivity|]. repeat split; vm_compute; reflexivity.
Qed.
