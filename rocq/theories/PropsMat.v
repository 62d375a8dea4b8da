(** C68: the MATLAB function primme_eigs. *)
From Coq Require Import String List Arith ZArith Bool Lia Permutation.
From Verif Require Import Base SvdsModel SpecR SpecMat MatModel PropsSvdsOp.
Import ListNotations.

Section Mat.
Context {K : Type}.
Variables (kzero : K) (kadd kmul : K -> K -> K).
Notation arr := (@MatModel.arr K).
Notation matrix := (@MatModel.matrix K).
Notation arg := (@MatModel.arg K).
Notation product := (is_product kzero kadd kmul).

Lemma read_concat : forall m (cs : list (list K)) pre, Forall (fun c => length c = m) cs ->
  read_cols (pre ++ concat cs) (length pre) m m (length cs) = Some cs.
Proof.
  intros m. induction cs as [|c cs IH]; intros pre F; [reflexivity|].
  inversion F as [|? ? Fc Fs]; subst. cbn [length read_cols concat]. unfold read_at.
  rewrite (proj2 (Nat.leb_le _ _)) by (rewrite !app_length; lia). cbn [bind].
  rewrite skipn_app, skipn_all, Nat.sub_diag. cbn [skipn app].
  rewrite firstn_app, firstn_all, Nat.sub_diag. cbn [firstn]. rewrite app_nil_r.
  specialize (IH (pre ++ c) Fs). rewrite app_length, <- app_assoc in IH. rewrite IH. reflexivity.
Qed.

Lemma read_concat0 : forall m n (cs : list (list K)), Forall (fun c => length c = m) cs -> length cs = n ->
  read_cols (concat cs) 0 m m n = Some cs.
Proof. intros m n cs F L. subst n. exact (read_concat m cs [] F). Qed.

Lemma column_length : forall (x : list K) m ld n j, fits x 0 m ld n -> j < n -> length (column x 0 m ld j) = m.
Proof.
  intros x m ld n j [M [F|F]] L; [lia|]. unfold column. rewrite firstn_length, skipn_length.
  assert (ld * j <= ld * (n - 1)) by (apply Nat.mul_le_mono_l; lia). lia.
Qed.

Lemma columns_forall : forall (x : list K) m ld n, fits x 0 m ld n ->
  Forall (fun c => length c = m) (map (column x 0 m ld) (seq 0 n)).
Proof.
  intros x m ld n F. apply Forall_forall. intros c I. apply in_map_iff in I. destruct I as (j & <- & I).
  apply in_seq in I. eapply column_length; [exact F|lia].
Qed.

Lemma create_ok : forall cplx (x : list K) n bsz ldx, fits x 0 n ldx bsz ->
  create_mxArray cplx x n bsz ldx = Ok (full n bsz cplx (concat (map (column x 0 n ldx) (seq 0 bsz)))).
Proof.
  intros cplx x n bsz ldx F. unfold create_mxArray. rewrite read_cols_spec; [reflexivity|].
  destruct F as [_ F]. exact F.
Qed.

Lemma concat_length : forall m (cs : list (list K)), Forall (fun c => length c = m) cs ->
  length (concat cs) = m * length cs.
Proof.
  intros m cs F. induction F as [|c cs Fc F IH]; [cbn; lia|].
  cbn [concat length]. rewrite app_length, IH. rewrite Fc. lia.
Qed.

Lemma nth_map_seq : forall X (f : nat -> X) n j d, j < n -> nth j (map f (seq 0 n)) d = f j.
Proof.
  intros X f n j d L. rewrite (nth_indep _ d (f 0)) by (rewrite map_length, seq_length; exact L).
  rewrite map_nth, seq_nth by exact L. reflexivity.
Qed.

Lemma col_times_product : forall (m : matrix) x, product (m_rows m) (m_cols m) (m_at m) x (col_times kzero kadd kmul m x).
Proof.
  intros m x. unfold col_times, is_product. split; [rewrite map_length, seq_length; reflexivity|].
  intros i L. rewrite nth_map_seq by exact L. reflexivity.
Qed.

(** *** C68_products: every vector that the solver asks for is multiplied by the matrix given as
    argument, and nothing else of its memory is touched; blocks of any size, any leading
    dimensions, real matrices in real runs, all matrices in complex ones. *)
Theorem C68_products : forall (m : matrix) n cplx bsz x ldx y ldy,
  m_rows m = n -> m_cols m = n -> (m_cplx m = true -> cplx = true) ->
  fits x 0 n ldx bsz -> fits y 0 n ldy bsz ->
  exists y', matvec cplx (times kzero kadd kmul m) n bsz x ldx y ldy = Ok y' /\ length y' = length y /\
    (forall j, j < bsz -> product n n (m_at m) (column x 0 n ldx j) (column y' 0 n ldy j)) /\
    (forall k, outside 0 n ldy bsz k -> nth_error y' k = nth_error y k).
Proof.
  intros m n cplx bsz x ldx y ldy R C MC FX FY. unfold matvec.
  destruct (bsz =? 0) eqn:Z.
  { apply Nat.eqb_eq in Z. subst bsz. exists y. repeat split; intros; lia. }
  rewrite (create_ok _ _ _ _ _ FX). cbn [rbind]. unfold times. cbn [full a_rows a_cols a_data a_cplx].
  rewrite C, Nat.eqb_refl.
  set (cs := map (column x 0 n ldx) (seq 0 bsz)).
  assert (Fc : Forall (fun c => length c = n) cs) by (apply columns_forall; exact FX).
  assert (Lc : length cs = bsz) by (unfold cs; rewrite map_length, seq_length; reflexivity).
  rewrite (read_concat0 n bsz cs Fc Lc).
  set (out := map (col_times kzero kadd kmul m) cs).
  assert (Fo : Forall (fun c => length c = n) out).
  { apply Forall_forall. intros c I. apply in_map_iff in I. destruct I as (c0 & <- & _).
    destruct (col_times_product m c0) as [L _]. congruence. }
  assert (Lo : length out = bsz) by (unfold out; rewrite map_length; exact Lc).
  unfold copy_mxArray. cbn [full a_rows a_cols a_cls a_cplx a_data].
  rewrite R, !Nat.eqb_refl. rewrite orb_true_r.
  replace ((m_cplx m || cplx) && negb cplx) with false
    by (destruct (m_cplx m), cplx; try reflexivity; specialize (MC eq_refl); discriminate).
  rewrite (read_concat0 n bsz out Fo Lo). cbn [rbind].
  destruct (write_cols_spec _ n ldy out y 0 Fo) as (y' & W & L & CC & O); [rewrite Lo; exact FY|].
  rewrite W. exists y'. split; [reflexivity|]. split; [exact L|]. rewrite Lo in CC, O. split; [|exact O].
  intros j J. rewrite (CC j J). unfold out.
  rewrite (nth_indep _ [] (col_times kzero kadd kmul m [])) by (rewrite map_length, Lc; exact J).
  rewrite map_nth. unfold cs. rewrite nth_map_seq by exact J.
  pose proof (col_times_product m (column x 0 n ldx j)) as P. rewrite R, C in P. exact P.
Qed.

(** *** C68_rectangular: a matrix whose rows are not as many as the order is an error at its
    first product; nothing is read or written out of its place. *)
Theorem C68_rectangular : forall (m : matrix) n cplx bsz x ldx y ldy,
  m_rows m <> n -> 1 < n -> m_cols m = n -> 0 < bsz -> (m_rows m = 1 -> bsz <> n) ->
  fits x 0 n ldx bsz -> matvec cplx (times kzero kadd kmul m) n bsz x ldx y ldy = Err.
Proof.
  intros m n cplx bsz x ldx y ldy R N C B G FX. unfold matvec.
  rewrite (proj2 (Nat.eqb_neq bsz 0)) by lia.
  rewrite (create_ok _ _ _ _ _ FX). cbn [rbind]. unfold times. cbn [full a_rows a_cols a_data a_cplx].
  rewrite C, Nat.eqb_refl.
  set (cs := map (column x 0 n ldx) (seq 0 bsz)).
  assert (Fc : Forall (fun c => length c = n) cs) by (apply columns_forall; exact FX).
  assert (Lc : length cs = bsz) by (unfold cs; rewrite map_length, seq_length; reflexivity).
  rewrite (read_concat0 n bsz cs Fc Lc). unfold copy_mxArray. cbn [full a_rows a_cols].
  rewrite (proj2 (Nat.eqb_neq (m_rows m) n)) by exact R. cbn [andb]. rewrite orb_false_r.
  destruct (m_rows m =? 1) eqn:E1; [|reflexivity]. apply Nat.eqb_eq in E1.
  rewrite (proj2 (Nat.eqb_neq bsz n)) by auto. reflexivity.
Qed.

Definition well_stored (r : arr) : Prop := a_sparse r = false -> length (a_data r) = a_rows r * a_cols r.

(** The answer of a function for a block has the right dimensions: as the block, or, for one
    vector, as a row. *)
Definition right_shape (n bsz : nat) (r : arr) : Prop :=
  (a_rows r = n /\ a_cols r = bsz) \/ (a_rows r = 1 /\ a_cols r = n /\ bsz = 1).

(** *** C68_function_partial: a function given as argument is called with the vectors asked for, and
    its answer is used as it is; answers of other dimensions, complex answers in a real run and
    answers that are not numbers are errors.  (For answers that are not sparse.) *)
Theorem C68_function_partial : forall (f : arr -> option arr) n cplx bsz x ldx y ldy,
  0 < bsz -> fits x 0 n ldx bsz -> fits y 0 n ldy bsz ->
  let ax := full n bsz cplx (concat (map (column x 0 n ldx) (seq 0 bsz))) in
  (forall r, f ax = Some r -> a_sparse r = false /\ well_stored r) ->
  match matvec cplx f n bsz x ldx y ldy with
  | Ok y' => exists r, f ax = Some r /\ right_shape n bsz r /\ (a_cplx r = true -> cplx = true) /\
      (forall j, j < bsz -> column y' 0 n ldy j = column (a_data r) 0 n n j) /\
      (forall k, outside 0 n ldy bsz k -> nth_error y' k = nth_error y k)
  | Err => forall r, f ax = Some r -> ~ right_shape n bsz r \/ (a_cplx r = true /\ cplx = false) \/ a_cls r = CChar
  | Bad => False
  end.
Proof.
  intros f n cplx bsz x ldx y ldy B FX FY ax W. unfold matvec.
  rewrite (proj2 (Nat.eqb_neq bsz 0)) by lia. rewrite (create_ok _ _ _ _ _ FX). cbn [rbind]. fold ax.
  destruct (f ax) as [r|] eqn:F; [|intros r E; discriminate].
  destruct (W r eq_refl) as [SP WS]. specialize (WS SP).
  unfold copy_mxArray.
  match goal with |- context [if ?b then _ else Err] => destruct b eqn:SH end.
  2: { cbn [rbind]. intros r0 E. injection E as E. subst r0. left. intros [[A1 A2]|(A1 & A2 & A3)].
       - rewrite A1, A2, !Nat.eqb_refl, orb_true_r in SH. discriminate.
       - rewrite A1, A2, A3, !Nat.eqb_refl in SH. discriminate. }
  assert (S : right_shape n bsz r).
  { apply orb_true_iff in SH. destruct SH as [SH|SH].
    - apply andb_true_iff in SH. destruct SH as [SH S3]. apply andb_true_iff in SH. destruct SH as [S1 S2].
      apply Nat.eqb_eq in S1, S2, S3. right. auto.
    - apply andb_true_iff in SH. destruct SH as [S1 S2]. apply Nat.eqb_eq in S1, S2. left. auto. }
  destruct (a_cls r) eqn:CL;
    try (cbn [rbind]; intros r0 E; injection E as E; subst r0; right; right; exact CL);
    (destruct (a_cplx r && negb cplx) eqn:CC;
      [cbn [rbind]; intros r0 E; injection E as E; subst r0; right; left;
       apply andb_true_iff in CC; destruct CC as [C1 C2]; split; [exact C1|now destruct cplx]|]);
    (assert (FR : fits (a_data r) 0 n n bsz);
      [split; [lia|]; right; rewrite WS; destruct S as [[-> ->]|(-> & -> & ->)]; nia|]);
    (rewrite read_cols_spec by (destruct FR as [_ FR]; exact FR)); cbn [rbind];
    (destruct (write_cols_spec _ n ldy (map (column (a_data r) 0 n n) (seq 0 bsz)) y 0) as (y' & WR & L & CO & O);
      [apply columns_forall; exact FR|rewrite map_length, seq_length; exact FY|]);
    rewrite WR; rewrite map_length, seq_length in CO, O;
    exists r; (split; [reflexivity|]); (split; [exact S|]);
    (split; [intros T; rewrite T in CC; destruct cplx; [reflexivity|discriminate]|]);
    (split; [intros j J; rewrite (CO j J); apply nth_map_seq; exact J|exact O]).
Qed.

(** *** C68_sparse_refuted: a sparse answer of the right dimensions, with fewer stored entries than
    that, is read beyond its storage. *)
Theorem C68_sparse_refuted : forall (a b : K), exists f y,
  (forall x r, f x = Some r -> right_shape 2 1 r /\ a_cplx r = false /\ a_cls r = CDouble) /\
  fits y 0 2 2 1 /\ matvec false f 2 1 [a; b] 2 y 2 = Bad.
Proof.
  intros a b. exists (fun _ => Some (Arr 2 1 CDouble false true [a])), [a; a].
  split; [intros x r E; injection E as E; subst r; split; [left; auto|auto]|].
  split; [split; cbn; lia|reflexivity].
Qed.

(** ** The arguments *)
Variable solve : matrix -> arr -> option arr.
Variable divide : K -> arr -> option arr.
Notation parse := (parse kzero kadd kmul solve divide).

(** What a matrix or function given as argument does to vectors. *)
Definition acts (a : arg) : arr -> option arr :=
  match a with AMat m => times kzero kadd kmul m | AFun f => f | _ => fun _ => None end.
Definition operator (a : arg) : Prop := match a with AMat _ | AFun _ => True | _ => False end.
Definition complex (a : arg) : bool := match a with AMat m => m_cplx m | _ => false end.

(** A call in one of the documented forms. *)
Definition documented (c : call arg) : Prop :=
  operator (c_A c) /\
  (forall b, c_B c = Some b -> operator b /\
     forall m, b = AMat m -> m_rows m = m_cols m /\ forall m', c_A c = AMat m' -> m_rows m = m_cols m') /\
  (if is_fun (c_A c) || match c_B c with Some b => is_fun b | None => false end
   then exists z n, c_dim c = Some (AScalar z n) else c_dim c = None) /\
  (forall x, nth_error (c_rest c) 0 = Some x -> exists z k, x = AScalar z k) /\
  (forall x, nth_error (c_rest c) 1 = Some x ->
     (exists z k, x = AScalar z k) \/ (exists s, x = AStr s /\ mat_target s <> None)) /\
  (forall x, nth_error (c_rest c) 2 = Some x -> x = AEmpty \/ exists o, x = AStruct o) /\
  (forall x, nth_error (c_rest c) 3 = Some x -> x = AEmpty \/ exists s, x = AStr s) /\
  (forall x, nth_error (c_rest c) 4 = Some x -> prec_of kzero solve divide x <> None) /\
  (forall x, nth_error (c_rest c) 5 = Some x -> prec_of kzero solve divide x <> None) /\
  length (c_rest c) <= 6.

Definition order_of (c : call arg) : nat :=
  match c_dim c, c_A c with Some (AScalar _ n), _ => n | _, AMat m => m_cols m | _, _ => 0 end.
Definition given_options (c : call arg) : list (string * option_value) :=
  match nth_error (c_rest c) 2 with Some (AStruct o) => o | _ => [] end.

Lemma target_known : forall s t, mat_target s = Some t ->
  lookup s target_names = Some (constant_of t) /\
  ((String.eqb s "SM" || String.eqb s "LM") = true <-> t = Closest \/ t = LargestMagnitude).
Proof.
  intros s t. unfold mat_target.
  destruct (string_dec s "LA"); [intros E; injection E as E; subst; split; [reflexivity|split; [discriminate|intros [E|E]; discriminate]]|].
  destruct (string_dec s "SA"); [intros E; injection E as E; subst; split; [reflexivity|split; [discriminate|intros [E|E]; discriminate]]|].
  destruct (string_dec s "LM"); [intros E; injection E as E; subst; split; [reflexivity|split; [auto|reflexivity]]|].
  destruct (string_dec s "SM"); [intros E; injection E as E; subst; split; [reflexivity|split; [auto|reflexivity]]|].
  destruct (string_dec s "CGT"); [intros E; injection E as E; subst; split; [reflexivity|split; [discriminate|intros [E|E]; discriminate]]|].
  destruct (string_dec s "CLT"); [intros E; injection E as E; subst; split; [reflexivity|split; [discriminate|intros [E|E]; discriminate]]|].
  discriminate.
Qed.

Lemma parse_written : forall c, documented c ->
  parse (written c) = rest_of kzero solve divide (order_of c) (acts (c_A c)) (option_map acts (c_B c))
    (is_fun (c_A c) || complex (c_A c) || match c_B c with Some b => complex b | None => false end) (c_rest c).
Proof.
  intros [A B D R] (OA & OB & OD & R0 & _). unfold written, order_of. cbn [c_A c_B c_dim c_rest] in *.
  destruct A as [ma|z k|fa|s|o|]; try contradiction; cbn [is_fun orb] in *;
    destruct B as [b|]; cbn [maybe app option_map] in *;
    try (destruct (OB b eq_refl) as [Ob Sb]; destruct b as [mb|z k|fb|s|o|]; try contradiction; cbn [is_fun orb] in *);
    try (destruct OD as (z & n & ->)); try (subst D); cbn [maybe app MatModel.parse rbind is_second is_fun acts complex orb].
  - destruct (Sb mb eq_refl) as [S1 S2]. rewrite S1, Nat.eqb_refl. cbn [negb].
    rewrite <- (S2 ma eq_refl), S1, Nat.eqb_refl. cbn [negb rbind]. reflexivity.
  - rewrite ?orb_false_r. reflexivity.
  - rewrite ?orb_false_r. destruct R as [|r R]; [reflexivity|].
    destruct (R0 r eq_refl) as (z & k & ->). reflexivity.
  - destruct (Sb mb eq_refl) as [S1 S2]. rewrite S1, Nat.eqb_refl. reflexivity.
  - reflexivity.
  - reflexivity.
Qed.

(** *** C68_arguments: in every documented form of the call each argument is used for what it is
    documented for, and those left out have the documented values. *)
Theorem C68_arguments : forall c, documented c -> exists p, parse (written c) = Ok p /\
  p_A p = acts (c_A c) /\ p_B p = option_map acts (c_B c) /\ p_n p = order_of c /\
  (p_cplx p = false -> complex (c_A c) = false /\ is_fun (c_A c) = false /\
                       forall b, c_B c = Some b -> complex b = false) /\
  p_k p = match nth_error (c_rest c) 0 with Some (AScalar _ k) => k | _ => Nat.min 6 (order_of c) end /\
  p_target p = constant_of (match nth_error (c_rest c) 1 with
                            | Some (AStr s) => match mat_target s with Some t => t | None => Closest end
                            | Some _ => Closest
                            | None => LargestMagnitude
                            end) /\
  p_opts p = given_options c /\
  p_method p = match nth_error (c_rest c) 3 with
               | Some (AStr s) => String.append "PRIMME_" s
               | _ => "PRIMME_DEFAULT_METHOD"%string
               end /\
  p_prec p = match nth_error (c_rest c) 4, nth_error (c_rest c) 5 with
             | Some a, None => prec_of kzero solve divide a
             | Some a, Some b =>
                 match prec_of kzero solve divide a, prec_of kzero solve divide b with
                 | Some f, Some g => Some (fun x => match f x with Some y => g y | None => None end)
                 | _, _ => None
                 end
             | None, _ => None
             end.
Proof.
  intros c D. rewrite (parse_written c D).
  destruct D as (_ & _ & _ & R0 & R1 & R2 & R3 & R4 & R5 & RL).
  unfold given_options.
  set (cx := is_fun (c_A c) || complex (c_A c) || match c_B c with Some b => complex b | None => false end).
  assert (CX : cx = false -> complex (c_A c) = false /\ is_fun (c_A c) = false /\
                       forall b, c_B c = Some b -> complex b = false).
  { unfold cx. intros E. apply orb_false_iff in E. destruct E as [E1 E3].
    apply orb_false_iff in E1. destruct E1 as [E1 E2]. split; [exact E2|]. split; [exact E1|].
    intros b E. rewrite E in E3. exact E3. }
  clearbody cx. generalize (order_of c) as n. intros n.
  destruct (c_rest c) as [|x0 [|x1 [|x2 [|x3 [|x4 [|x5 [|x6 r]]]]]]];
    [| | | | | | |cbn [length] in RL; lia];
    cbn [nth_error] in *; unfold rest_of;
    try (destruct (R0 _ eq_refl) as (z0 & k0 & ->));
    cbn [rbind];
    try (destruct (R1 _ eq_refl) as [(z1 & k1 & ->)|(s1 & -> & T1)];
         cbn [target_of numeric rbind fst snd];
         [|destruct (mat_target s1) as [t1|] eqn:MT; [|contradiction];
           destruct (target_known s1 t1 MT) as [LK _]; rewrite LK; cbn [rbind fst snd]]);
    try (destruct (R2 _ eq_refl) as [->|(o2 & ->)]; cbn [rbind]);
    try (destruct (R3 _ eq_refl) as [->|(s3 & ->)]; cbn [rbind]);
    try (pose proof (R4 _ eq_refl) as P4; destruct (prec_of kzero solve divide x4) as [f4|] eqn:E4; [|contradiction]; cbn [rbind]);
    try (pose proof (R5 _ eq_refl) as P5; destruct (prec_of kzero solve divide x5) as [f5|] eqn:E5; [|contradiction]; cbn [rbind]);
    (eexists; split; [reflexivity|]; cbn [p_A p_B p_n p_cplx p_k p_target p_opts p_method p_prec];
     repeat (split; [reflexivity || exact CX|]); first [reflexivity | (rewrite ?E4; reflexivity)]).
Qed.

(** *** C68_shifts: the shifts are those of the options; without them the number given as target,
    or zero for LM and SM. *)
Theorem C68_shifts : forall c p, documented c -> parse (written c) = Ok p ->
  p_shifts p =
    match lookup "targetShifts" (given_options c) with
    | Some (VNum a) => Some a
    | Some _ => None
    | None => match nth_error (c_rest c) 1 with
              | Some (AScalar z _) => Some (full 1 1 false [z])
              | Some (AStr s) => match mat_target s with
                                 | Some Closest | Some LargestMagnitude => Some (full 1 1 false [kzero])
                                 | _ => None
                                 end
              | _ => Some (full 1 1 false [kzero])
              end
    end.
Proof.
  intros c p D H. rewrite (parse_written c D) in H.
  destruct D as (_ & _ & _ & R0 & R1 & R2 & R3 & R4 & R5 & RL).
  unfold given_options.
  destruct (c_rest c) as [|x0 [|x1 [|x2 [|x3 [|x4 [|x5 [|x6 r]]]]]]];
    [| | | | | | |cbn [length] in RL; lia];
    cbn [nth_error] in *; unfold rest_of in H;
    try (destruct (R0 _ eq_refl) as (z0 & k0 & ->));
    cbn [rbind] in H;
    try (destruct (R1 _ eq_refl) as [(z1 & k1 & ->)|(s1 & -> & T1)];
         cbn [target_of numeric rbind fst snd] in H;
         [|destruct (mat_target s1) as [t1|] eqn:MT; [|contradiction];
           destruct (target_known s1 t1 MT) as [LK SH]; rewrite LK in H; cbn [rbind fst snd] in H]);
    try (destruct (R2 _ eq_refl) as [->|(o2 & ->)]; cbn [rbind] in H);
    try (destruct (R3 _ eq_refl) as [->|(s3 & ->)]; cbn [rbind] in H);
    try (pose proof (R4 _ eq_refl) as P4; destruct (prec_of kzero solve divide x4) as [f4|] eqn:E4; [|contradiction]; cbn [rbind] in H);
    try (pose proof (R5 _ eq_refl) as P5; destruct (prec_of kzero solve divide x5) as [f5|] eqn:E5; [|contradiction]; cbn [rbind] in H);
    injection H as H; subst p; cbn [p_shifts];
    try reflexivity;
    try (cbn [lookup]; destruct (String.eqb s1 "SM" || String.eqb s1 "LM") eqn:Q;
         destruct t1; try reflexivity; exfalso;
         first [ destruct (proj1 SH eq_refl); discriminate
               | (assert (false = true) by (apply SH; auto); discriminate) ]);
    (destruct (lookup "targetShifts" o2) as [[| |]|]; try reflexivity;
         destruct (String.eqb s1 "SM" || String.eqb s1 "LM") eqn:Q;
         destruct t1; try reflexivity; exfalso;
         first [ destruct (proj1 SH eq_refl); discriminate
               | (assert (false = true) by (apply SH; auto); discriminate) ]).
Qed.

(** *** C68_shifts_set: a row or a column of real numbers reaches the solver as it is. *)
Theorem C68_shifts_set : forall a : arr, a_sparse a = false -> well_stored a -> a_cplx a = false ->
  a_cls a <> CChar -> a_rows a = 1 \/ a_cols a = 1 -> set_shifts a = Ok (a_data a).
Proof.
  intros a SP W C CL S. specialize (W SP). unfold set_shifts, copy_mxArray.
  assert (Sh : ((a_rows a =? 1) && (a_cols a =? a_rows a * a_cols a) && (1 =? 1)
            || (a_rows a =? a_rows a * a_cols a) && (a_cols a =? 1)) = true).
  { destruct S as [->| ->]; rewrite ?Nat.mul_1_l, ?Nat.mul_1_r, !Nat.eqb_refl; cbn; rewrite ?orb_true_r; reflexivity. }
  rewrite Sh, C. cbn [andb]. rewrite <- W. cbn [read_cols]. unfold read_at.
  rewrite (proj2 (Nat.leb_le _ _)) by lia. cbn [skipn bind]. rewrite firstn_all.
  destruct (a_cls a); try contradiction; cbn [rbind concat]; rewrite app_nil_r; reflexivity.
Qed.

(** *** C68_no_shifts_refuted: the documented empty list of shifts is an error. *)
Theorem C68_no_shifts_refuted : set_shifts (K := K) (full 0 0 false []) = Err.
Proof. reflexivity. Qed.

(** *** C68_prec: a matrix given as preconditioner is divided by from the left; with two of them
    the first is applied first. *)
Theorem C68_prec : forall c m1 p, documented c -> nth_error (c_rest c) 4 = Some (AMat m1) -> parse (written c) = Ok p ->
  forall f, p_prec p = Some f -> forall x, a_rows x = m_rows m1 ->
  (nth_error (c_rest c) 5 = None -> f x = solve m1 x) /\
  (forall m2, nth_error (c_rest c) 5 = Some (AMat m2) ->
     f x = match solve m1 x with
           | Some y => if a_rows y =? m_rows m2 then solve m2 y else None
           | None => None
           end).
Proof.
  intros c m1 p D N4 H f F x R.
  destruct (C68_arguments c D) as (p' & H' & _ & _ & _ & _ & _ & _ & _ & _ & P).
  rewrite H in H'. injection H' as H'. subst p'. rewrite F, N4 in P.
  split.
  - intros N5. rewrite N5 in P. cbn [prec_of] in P. injection P as P. subst f. unfold backslash.
    rewrite R, Nat.eqb_refl. reflexivity.
  - intros m2 N5. rewrite N5 in P. cbn [prec_of] in P. injection P as P. subst f. unfold backslash.
    rewrite R, Nat.eqb_refl. destruct (solve m1 x) as [y|]; [|reflexivity].
    rewrite Nat.eqb_sym. reflexivity.
Qed.

(** *** C68_no_prec_refuted: the documented [] for no preconditioner is applied all the same, and
    raises an error for every vector. *)
Theorem C68_no_prec_refuted : forall c p, documented c -> nth_error (c_rest c) 4 = Some AEmpty ->
  nth_error (c_rest c) 5 = None -> parse (written c) = Ok p ->
  exists f, p_prec p = Some f /\ forall x, 0 < a_rows x -> f x = None.
Proof.
  intros c p D N4 N5 H.
  destruct (C68_arguments c D) as (p' & H' & _ & _ & _ & _ & _ & _ & _ & _ & P).
  rewrite H in H'. injection H' as H'. subst p'. rewrite N4, N5 in P. cbn [prec_of] in P.
  eexists. split; [exact P|]. intros x R. unfold backslash. cbn [empty_matrix m_rows].
  destruct (a_rows x); [lia|reflexivity].
Qed.

(** *** C68_prec_function: a function given as preconditioner is called with the vectors and its
    answer is used as it is. *)
Theorem C68_prec_function : forall c g p, documented c -> nth_error (c_rest c) 4 = Some (AFun g) ->
  nth_error (c_rest c) 5 = None -> parse (written c) = Ok p ->
  exists f, p_prec p = Some f /\ forall x, f x = g x.
Proof.
  intros c g p D N4 N5 H.
  destruct (C68_arguments c D) as (p' & H' & _ & _ & _ & _ & _ & _ & _ & _ & P).
  rewrite H in H'. injection H' as H'. subst p'. rewrite N4, N5 in P. cbn [prec_of] in P.
  eexists. split; [exact P|]. reflexivity.
Qed.

(** *** C68_unknown_target: a word that is not the name of a target is an error. *)
Theorem C68_unknown_target : forall m z k s rest, mat_target s = None ->
  parse (AMat m :: AScalar z k :: AStr s :: rest) = Err.
Proof.
  intros m z k s rest T. unfold mat_target in T.
  assert (L : lookup s target_names = None).
  { repeat match type of T with (if ?b then _ else _) = _ => destruct b as [|?N]; [discriminate|] end.
    unfold target_names, lookup.
    repeat match goal with H : s <> ?w |- _ => apply String.eqb_neq in H end.
    repeat match goal with H : String.eqb s ?w = false |- _ => first [rewrite H|rewrite String.eqb_sym, H]; clear H end.
    reflexivity. }
  assert (T2 : forall n fa fb cplx, rest_of kzero solve divide n fa fb cplx (AScalar z k :: AStr s :: rest) = Err)
    by (intros; unfold rest_of, target_of; cbn [rbind numeric]; rewrite L; reflexivity).
  unfold parse. cbn [rbind is_second]. apply T2.
Qed.

End Mat.
