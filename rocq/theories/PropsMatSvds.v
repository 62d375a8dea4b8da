(** C69: the MATLAB function primme_svds: products, targets and preconditioners. *)
From Coq Require Import Ascii String List Arith ZArith Bool Lia.
From Verif Require Import Base SvdsModel SpecR SpecMat MatModel MatSvdsModel PropsSvdsOp PropsMat.
Import ListNotations.

Section Products.
Context {K : Type}.
Variables (kzero : K) (kadd kmul : K -> K -> K) (cj : K -> K).
Notation arr := (@MatModel.arr K).
Notation matrix := (@MatModel.matrix K).
Notation product := (is_product kzero kadd kmul).

Lemma matvec2_times : forall (a : matrix) mx my cplx bsz x ldx y ldy,
  m_rows a = my -> m_cols a = mx -> (m_cplx a = true -> cplx = true) ->
  fits x 0 mx ldx bsz -> fits y 0 my ldy bsz ->
  exists y', matvec2 cplx (times kzero kadd kmul a) mx my bsz x ldx y ldy = Ok y' /\ length y' = length y /\
    (forall j, j < bsz -> product my mx (m_at a) (column x 0 mx ldx j) (column y' 0 my ldy j)) /\
    (forall k, outside 0 my ldy bsz k -> nth_error y' k = nth_error y k).
Proof.
  intros m mx my cplx bsz x ldx y ldy R C MC FX FY. unfold matvec2.
  destruct (bsz =? 0) eqn:Z.
  { apply Nat.eqb_eq in Z. subst bsz. exists y. repeat split; intros; lia. }
  rewrite (create_ok _ _ _ _ _ FX). cbn [rbind]. unfold times. cbn [full a_rows a_cols a_data a_cplx].
  rewrite C, Nat.eqb_refl.
  set (cs := map (column x 0 mx ldx) (seq 0 bsz)).
  assert (Fc : Forall (fun c => length c = mx) cs) by (apply columns_forall; exact FX).
  assert (Lc : length cs = bsz) by (unfold cs; rewrite map_length, seq_length; reflexivity).
  rewrite (read_concat0 mx bsz cs Fc Lc).
  set (out := map (col_times kzero kadd kmul m) cs).
  assert (Fo : Forall (fun c => length c = my) out).
  { apply Forall_forall. intros c I. apply in_map_iff in I. destruct I as (c0 & <- & _).
    destruct (col_times_product kzero kadd kmul m c0) as [L _]. congruence. }
  assert (Lo : length out = bsz) by (unfold out; rewrite map_length; exact Lc).
  unfold copy_mxArray. cbn [full a_rows a_cols a_cls a_cplx a_data].
  rewrite R, !Nat.eqb_refl. rewrite orb_true_r.
  replace ((m_cplx m || cplx) && negb cplx) with false
    by (destruct (m_cplx m), cplx; try reflexivity; specialize (MC eq_refl); discriminate).
  rewrite (read_concat0 my bsz out Fo Lo). cbn [rbind].
  destruct (write_cols_spec _ my ldy out y 0 Fo) as (y' & W & L & CC & O); [rewrite Lo; exact FY|].
  rewrite W. exists y'. split; [reflexivity|]. split; [exact L|]. rewrite Lo in CC, O. split; [|exact O].
  intros j J. rewrite (CC j J). unfold out.
  rewrite (nth_indep _ [] (col_times kzero kadd kmul m [])) by (rewrite map_length, Lc; exact J).
  rewrite map_nth. unfold cs. rewrite nth_map_seq by exact J.
  pose proof (col_times_product kzero kadd kmul m (column x 0 mx ldx j)) as P. rewrite R, C in P. exact P.
Qed.

(** *** C69_products: every vector that the solver asks for is multiplied by the matrix given as
    argument, or by its conjugate transpose when it asks for that, and nothing else of its memory is
    touched; any numbers of rows and columns, blocks of any size, any leading dimensions. *)
Theorem C69_products : forall (a : matrix) (transpose : bool) cplx bsz x ldx y ldy,
  let m := m_rows a in let n := m_cols a in
  let mx := if transpose then m else n in let my := if transpose then n else m in
  (m_cplx a = true -> cplx = true) -> fits x 0 mx ldx bsz -> fits y 0 my ldy bsz ->
  exists y', svds_product cplx (matvecsvds kzero kadd kmul cj a) m n transpose bsz x ldx y ldy = Ok y' /\
    length y' = length y /\
    (forall j, j < bsz ->
       product my mx (if transpose then adjoint cj (m_at a) else m_at a) (column x 0 mx ldx j) (column y' 0 my ldy j)) /\
    (forall k, outside 0 my ldy bsz k -> nth_error y' k = nth_error y k).
Proof.
  intros a transpose cplx bsz x ldx y ldy m n mx my MC FX FY. unfold svds_product, matvecsvds.
  destruct transpose; cbn [String.get].
  - exact (matvec2_times (ctranspose cj a) m n cplx bsz x ldx y ldy eq_refl eq_refl MC FX FY).
  - exact (matvec2_times a n m cplx bsz x ldx y ldy eq_refl eq_refl MC FX FY).
Qed.

(** *** C69_function_partial: a function given as argument is called with the vectors asked for and
    the word for what is asked, and its answer is used as it is; answers of other dimensions, complex
    answers in a real run and answers that are not numbers are errors.  (For answers that are not
    sparse.) *)
Theorem C69_function_partial : forall (f : arr -> string -> option arr) m n (transpose : bool) cplx bsz x ldx y ldy,
  let mx := if transpose then m else n in let my := if transpose then n else m in
  let word := if transpose then "transp"%string else "notransp"%string in
  0 < bsz -> fits x 0 mx ldx bsz -> fits y 0 my ldy bsz ->
  let ax := full mx bsz cplx (concat (map (column x 0 mx ldx) (seq 0 bsz))) in
  (forall r, f ax word = Some r -> a_sparse r = false /\ well_stored r) ->
  match svds_product cplx f m n transpose bsz x ldx y ldy with
  | Ok y' => exists r, f ax word = Some r /\ right_shape my bsz r /\ (a_cplx r = true -> cplx = true) /\
      (forall j, j < bsz -> column y' 0 my ldy j = column (a_data r) 0 my my j) /\
      (forall k, outside 0 my ldy bsz k -> nth_error y' k = nth_error y k)
  | Err => forall r, f ax word = Some r -> ~ right_shape my bsz r \/ (a_cplx r = true /\ cplx = false) \/ a_cls r = CChar
  | Bad => False
  end.
Proof.
  intros f0 m n0 transpose cplx bsz x ldx y ldy mx n word B FX FY ax W.
  set (f := fun a => f0 a word).
  assert (E0 : svds_product cplx f0 m n0 transpose bsz x ldx y ldy = matvec2 cplx f mx n bsz x ldx y ldy)
    by (unfold f, mx, n, word; destruct transpose; reflexivity).
  rewrite E0. change (f0 ax word) with (f ax) in *. clearbody f mx n. clear E0. unfold matvec2.
  rewrite (proj2 (Nat.eqb_neq bsz 0)) by lia. rewrite (create_ok _ _ _ _ _ FX). cbn [rbind]. fold ax.
  destruct (f ax) as [r|] eqn:F; [|intros r E; discriminate].
  destruct (W r eq_refl) as [SP WS]. specialize (WS SP).
  unfold copy_mxArray.
  match goal with |- context [if ?b then _ else Err] => destruct b eqn:SH end.
  2: { cbn [rbind]. intros r0 E. injection E as E. subst r0. left. intros [[A1 A2]|(A1 & A2 & A3)].
       - rewrite A1, A2, !Nat.eqb_refl, orb_true_r in SH. discriminate.
       - rewrite A1, A2, A3, !Nat.eqb_refl in SH. discriminate. }
  assert (S : right_shape n bsz r).
  { apply orb_true_iff in SH. destruct SH as [SH|SH].
    - apply andb_true_iff in SH. destruct SH as [SH S3]. apply andb_true_iff in SH. destruct SH as [S1 S2].
      apply Nat.eqb_eq in S1, S2, S3. right. auto.
    - apply andb_true_iff in SH. destruct SH as [S1 S2]. apply Nat.eqb_eq in S1, S2. left. auto. }
  destruct (a_cls r) eqn:CL;
    try (cbn [rbind]; intros r0 E; injection E as E; subst r0; right; right; exact CL);
    (destruct (a_cplx r && negb cplx) eqn:CC;
      [cbn [rbind]; intros r0 E; injection E as E; subst r0; right; left;
       apply andb_true_iff in CC; destruct CC as [C1 C2]; split; [exact C1|now destruct cplx]|]);
    (assert (FR : fits (a_data r) 0 n n bsz);
      [split; [lia|]; right; rewrite WS; destruct S as [[-> ->]|(-> & -> & ->)]; nia|]);
    (rewrite read_cols_spec by (destruct FR as [_ FR]; exact FR)); cbn [rbind];
    (destruct (write_cols_spec _ n ldy (map (column (a_data r) 0 n n) (seq 0 bsz)) y 0) as (y' & WR & L & CO & O);
      [apply columns_forall; exact FR|rewrite map_length, seq_length; exact FY|]);
    rewrite WR; rewrite map_length, seq_length in CO, O;
    exists r; (split; [reflexivity|]); (split; [exact S|]);
    (split; [intros T; rewrite T in CC; destruct cplx; [reflexivity|discriminate]|]);
    (split; [intros j J; rewrite (CO j J); apply nth_map_seq; exact J|exact O]).
Qed.
End Products.

(** A matrix of one row and two columns, both products. *)
Example C69_products_case :
  let a := Matrix 1 2 false (fun _ j => Z.of_nat (j + 2)) in
  let f := matvecsvds 0%Z Z.add Z.mul (fun z => z) a in
  svds_product false f 1 2 false 1 [5; 7]%Z 2 [0]%Z 1 = Ok [31]%Z /\
  svds_product false f 1 2 true 1 [10]%Z 1 [0; 0]%Z 2 = Ok [20; 30]%Z.
Proof. split; reflexivity. Qed.

(** *** C69_targets: words beginning with L or S are the largest or smallest singular values; numbers
    that are all zero, the smallest; numbers none of which is negative, the closest to them, and they
    are the shifts passed to the solver; all the rest is an error; without a target, the largest. *)
Theorem C69_targets : forall V (sg : V -> sign),
  svds_target sg None = Ok ("primme_svds_largest"%string, None) /\
  (forall c w, svds_target sg (Some (inl (String c w))) =
     if Ascii.eqb c "L" then Ok ("primme_svds_largest"%string, None)
     else if Ascii.eqb c "S" then Ok ("primme_svds_smallest"%string, None) else Err) /\
  svds_target sg (Some (inl EmptyString)) = Err /\
  (forall l, Forall (fun v => sg v = Zero) l -> svds_target sg (Some (inr l)) = Ok ("primme_svds_smallest"%string, None)) /\
  (forall l, Forall (fun v => sg v <> Negative) l -> Exists (fun v => sg v = Positive) l ->
     svds_target sg (Some (inr l)) = Ok ("primme_svds_closest_abs"%string, Some l)) /\
  (forall l, Exists (fun v => sg v = Negative) l -> svds_target sg (Some (inr l)) = Err).
Proof.
  intros V sg. split; [reflexivity|]. split.
  { intros c w. unfold svds_target. cbn [String.get].
    destruct c as [[|] [|] [|] [|] [|] [|] [|] [|]]; reflexivity. }
  split; [reflexivity|]. split.
  { intros l F. unfold svds_target.
    rewrite (proj2 (forallb_forall _ _)); [reflexivity|]. intros v I. rewrite Forall_forall in F.
    rewrite (F v I). reflexivity. }
  split.
  { intros l F X. unfold svds_target. rewrite Forall_forall in F. rewrite Exists_exists in X.
    destruct X as (p & I & P).
    destruct (forallb _ l) eqn:A.
    { rewrite forallb_forall in A. specialize (A p I). rewrite P in A. discriminate. }
    rewrite (proj2 (forallb_forall _ _)); [reflexivity|]. intros v J. specialize (F v J).
    destruct (sg v); congruence. }
  intros l X. unfold svds_target. rewrite Exists_exists in X. destruct X as (p & I & P).
  destruct (forallb _ l) eqn:A.
  { rewrite forallb_forall in A. specialize (A p I). rewrite P in A. discriminate. }
  clear A. destruct (forallb _ l) eqn:A; [|reflexivity].
  rewrite forallb_forall in A. specialize (A p I). rewrite P in A. discriminate.
Qed.

Section Prec.
Context {K M : Type}.
Variables (solve : M -> list K -> option (list K)) (adj : M -> M) (nrows : M -> nat) (mul : M -> list K -> list K).
Notation svds_prec := (@MatSvdsModel.svds_prec K M solve adj nrows).

(** A square matrix of order [k] whose systems can all be solved. *)
Definition regular (k : nat) (p : M) : Prop :=
  nrows p = k /\ forall x, length x = k -> exists y, solve p x = Some y /\ length y = k /\ mul p y = x.

(** Sizes of the vectors of each of the three problems. *)
Definition size_of (m n : nat) (mode : pmode) : nat := match mode with AHA => n | AAH => m | Aug => m + n end.

(** What the documentation promises of a preconditioner for A, with [A] and [AH] the products by the
    approximation and by its conjugate transpose: the answer solves the systems with A'*A, A*A' and
    [0 A'; A 0]. *)
Definition solves (A AH : list K -> list K) (m n : nat) (f : pmode -> list K -> option (list K)) : Prop :=
  forall mode x, length x = size_of m n mode ->
  exists y, f mode x = Some y /\ length y = length x /\
    match mode with
    | AHA => AH (A y) = x
    | AAH => A (AH y) = x
    | Aug => AH (skipn n y) = firstn n x /\ A (firstn n y) = skipn n x
    end.

Lemma ldiv_regular : forall k p x, regular k p -> length x = k ->
  exists y, ldiv solve nrows p x = Some y /\ length y = k /\ mul p y = x.
Proof.
  intros k p x [R S] L. unfold ldiv. rewrite R, L, Nat.eqb_refl. exact (S x L).
Qed.

Lemma halves : forall n (a b x : list K), length a = n -> length b = n -> length x = n + n ->
  firstn n (a ++ b) = a /\ skipn n (a ++ b) = b /\ length (a ++ b) = length x /\
  length (firstn n x) = n /\ length (skipn n x) = n.
Proof.
  intros n a b x A B X. split; [rewrite <- A, firstn_app, firstn_all, Nat.sub_diag, firstn_O, app_nil_r; reflexivity|].
  split; [rewrite <- A, skipn_app, skipn_all, Nat.sub_diag; reflexivity|].
  rewrite app_length, firstn_length, skipn_length. lia.
Qed.

(** A function that gives P\X and P'\X for a square P of order [n]. *)
Definition divides (A AH : list K -> list K) (n : nat) (f : bool -> list K -> option (list K)) : Prop :=
  forall x, length x = n ->
  (exists y, f false x = Some y /\ length y = n /\ A y = x) /\ (exists y, f true x = Some y /\ length y = n /\ AH y = x).

Lemma prec_fun_solves : forall A AH n f, divides A AH n f -> solves A AH n n (prec_fun f n).
Proof.
  intros A AH n f D mode x L. destruct mode; cbn [size_of] in L; cbn [prec_fun].
  - destruct (D x L) as [_ (a & Fa & La & Pa)]. rewrite Fa. cbn [bind].
    destruct (D a La) as [(b & Fb & Lb & Pb) _]. exists b. rewrite Fb, Pb. repeat split; congruence.
  - destruct (D x L) as [(a & Fa & La & Pa) _]. rewrite Fa. cbn [bind].
    destruct (D a La) as [_ (b & Fb & Lb & Pb)]. exists b. rewrite Fb, Pb. repeat split; congruence.
  - unfold tail_of, head_of. rewrite (proj2 (Nat.leb_le n (length x))) by lia.
    assert (L1 : length (skipn n x) = n) by (rewrite skipn_length; lia).
    assert (L2 : length (firstn n x) = n) by (rewrite firstn_length; lia).
    destruct (D _ L1) as [(a & Fa & La & Pa) _]. destruct (D _ L2) as [_ (b & Fb & Lb & Pb)].
    rewrite Fa. cbn [bind]. rewrite Fb. cbn [bind]. exists (a ++ b).
    destruct (halves n a b x La Lb L) as (H1 & H2 & H3 & _). rewrite H1, H2. repeat split; congruence.
Qed.

(** *** C69_prec_matrix_partial: for a square matrix A, a matrix given as preconditioner is applied as
    documented in the three problems.  (For other shapes: C69_rectangular_refuted.) *)
Theorem C69_prec_matrix_partial : forall n p second, regular n p -> regular n (adj p) ->
  second = None \/ second = Some PEmpty ->
  exists f, svds_prec n (Some (PMat p)) second = Ok (Some f) /\ solves (mul p) (mul (adj p)) n n f.
Proof.
  intros n p second R RA S. exists (prec_mat solve adj nrows p). split; [destruct S as [-> | ->]; reflexivity|].
  assert (E : nrows p = n) by (destruct R; assumption).
  assert (D : divides (mul p) (mul (adj p)) n (fun t x => if t then ldiv solve nrows (adj p) x else ldiv solve nrows p x)).
  { intros x L. split; [exact (ldiv_regular n p x R L)|exact (ldiv_regular n (adj p) x RA L)]. }
  intros mode x L. destruct (prec_fun_solves _ _ n _ D mode x L) as (y & F & Q). exists y. split; [|exact Q].
  rewrite <- F. destruct mode; cbn [prec_mat prec_fun]; rewrite ?E; reflexivity.
Qed.

(** *** C69_prec_function_partial: the same for a function. *)
Theorem C69_prec_function_partial : forall A AH n f second, divides A AH n f -> second = None \/ second = Some PEmpty ->
  exists g, svds_prec n (Some (PFun f)) second = Ok (Some g) /\ solves A AH n n g.
Proof.
  intros A AH n f second D S. exists (prec_fun f n). split; [destruct S as [-> | ->]; reflexivity|].
  apply prec_fun_solves. exact D.
Qed.

(** *** C69_prec_factors_partial: the same for two factors, whose product approximates A. *)
Theorem C69_prec_factors_partial : forall n p1 p2, regular n p1 -> regular n (adj p1) -> regular n p2 -> regular n (adj p2) ->
  exists f, svds_prec n (Some (PMat p1)) (Some (PMat p2)) = Ok (Some f) /\
    solves (fun v => mul p1 (mul p2 v)) (fun v => mul (adj p2) (mul (adj p1) v)) n n f.
Proof.
  intros n p1 p2 R1 A1 R2 A2. exists (prec_two solve adj nrows (Some p1) p2). split; [reflexivity|].
  assert (E : nrows p1 = n) by (destruct R1; assumption).
  set (g := fun (t : bool) x => if t then a <- ldiv solve nrows (adj p2) x ; ldiv solve nrows (adj p1) a
                                else a <- ldiv solve nrows p1 x ; ldiv solve nrows p2 a).
  assert (D : divides (fun v => mul p1 (mul p2 v)) (fun v => mul (adj p2) (mul (adj p1) v)) n g).
  { intros x L. unfold g. split.
    - destruct (ldiv_regular n p1 x R1 L) as (a & Fa & La & Pa). destruct (ldiv_regular n p2 a R2 La) as (b & Fb & Lb & Pb).
      exists b. rewrite Fa. cbn [bind]. rewrite Fb, Pb. auto.
    - destruct (ldiv_regular n _ x A2 L) as (a & Fa & La & Pa). destruct (ldiv_regular n _ a A1 La) as (b & Fb & Lb & Pb).
      exists b. rewrite Fa. cbn [bind]. rewrite Fb, Pb. auto. }
  intros mode x L. destruct (prec_fun_solves _ _ n _ D mode x L) as (y & F & Q). exists y. split; [|exact Q].
  rewrite <- F. unfold g. destruct mode; cbn [prec_two prec_fun]; rewrite ?E.
  - destruct (ldiv solve nrows (adj p2) x) as [a|]; reflexivity.
  - destruct (ldiv solve nrows p1 x) as [a|]; reflexivity.
  - unfold bind. destruct (ldiv solve nrows p1 (tail_of n x)) as [a|]; [|reflexivity].
    destruct (ldiv solve nrows p2 a) as [b|]; [|reflexivity].
    destruct (head_of n x) as [h|]; [|reflexivity].
    destruct (ldiv solve nrows (adj p2) h) as [c|]; reflexivity.
Qed.

(** *** C69_prec_R_partial: for a square A and one factor in the second place, the systems with
    P2'*P2 are solved for A'*A, and the augmented problem has no preconditioner. *)
Theorem C69_prec_R_partial : forall n p2, regular n p2 -> regular n (adj p2) ->
  exists f, svds_prec n (Some PEmpty) (Some (PMat p2)) = Ok (Some f) /\
    (forall x, length x = n -> exists y, f AHA x = Some y /\ length y = n /\ mul (adj p2) (mul p2 y) = x) /\
    (forall x, f Aug x = Some x) /\ (forall one, trial one n n (Some f) = Ok tt).
Proof.
  intros n p2 R RA. exists (prec_two solve adj nrows None p2). split; [reflexivity|].
  assert (H : forall x, length x = n -> exists y, prec_two solve adj nrows None p2 AHA x = Some y /\ length y = n /\ mul (adj p2) (mul p2 y) = x).
  { intros x L. destruct (ldiv_regular n _ x RA L) as (a & Fa & La & Pa). destruct (ldiv_regular n p2 a R La) as (b & Fb & Lb & Pb).
    exists b. cbn [prec_two]. rewrite Fa. cbn [bind]. rewrite Fb, Pb. auto. }
  split; [exact H|]. split; [reflexivity|]. intros one. unfold trial.
  destruct (H (repeat one n) (repeat_length _ _)) as (y & F & _). rewrite F.
  destruct (ldiv_regular n p2 (repeat one n) R (repeat_length _ _)) as (a & Fa & La & Pa).
  destruct (ldiv_regular n _ a RA La) as (b & Fb & Lb & Pb). cbn [prec_two]. rewrite Fa. cbn [bind]. rewrite Fb. reflexivity.
Qed.

(** *** C69_prec_struct: of a struct, the field for the problem at hand is applied, by division if it
    is a matrix; without that field the vector is unchanged. *)
Theorem C69_prec_struct : forall m fields second, second = None \/ second = Some PEmpty ->
  exists f, svds_prec m (Some (PStruct fields)) second = Ok (Some f) /\
    forall mode x,
    (forall k p, fields mode = Some (inl p) -> regular k p -> length x = k -> exists y, f mode x = Some y /\ mul p y = x) /\
    (forall g, fields mode = Some (inr g) -> f mode x = g x) /\ (fields mode = None -> f mode x = Some x).
Proof.
  intros m fields second S. exists (prec_struct solve nrows fields). split; [destruct S as [-> | ->]; reflexivity|].
  intros mode x. unfold prec_struct. split; [|split].
  - intros k p F R L. rewrite F. destruct (ldiv_regular k p x R L) as (y & D & _ & Q). eauto.
  - intros g F. rewrite F. reflexivity.
  - intros F. rewrite F. reflexivity.
Qed.

(** *** C69_prec_none: nothing is applied without a preconditioner and for empty ones, and two
    arguments that are not matrices are an error. *)
Theorem C69_prec_none : forall m,
  svds_prec m None None = Ok None /\ svds_prec m (Some PEmpty) None = Ok None /\
  svds_prec m (Some PEmpty) (Some PEmpty) = Ok None /\
  forall a b, svds_prec m (Some a) (Some b) = Err <->
    b <> PEmpty /\ ((forall p, b <> PMat p) \/ (a <> PEmpty /\ forall p, a <> PMat p)).
Proof.
  intros m. repeat (split; [reflexivity|]). intros a b. split.
  - destruct a, b; cbn; intros H; try discriminate H; (split; [discriminate|]);
      first [left; intros; discriminate|right; split; [discriminate|intros; discriminate]].
  - intros [NB H]. destruct b; cbn; [congruence| | |]; destruct a; cbn; try reflexivity;
      destruct H as [H|[H1 H2]]; try (exfalso; eapply H; reflexivity); try (exfalso; apply H1; reflexivity);
      exfalso; eapply H2; reflexivity.
Qed.

(** *** C69_trial: a preconditioner that works as documented passes the trial. *)
Theorem C69_trial : forall A AH m n f one, solves A AH m n f -> trial one m n (Some f) = Ok tt.
Proof.
  intros A AH m n f one S. unfold trial.
  destruct (S AHA (repeat one n) (repeat_length _ _)) as (a & -> & _).
  destruct (S AAH (repeat one m) (repeat_length _ _)) as (b & -> & _).
  destruct (S Aug (repeat one (m + n)) (repeat_length _ _)) as (c & -> & _). reflexivity.
Qed.

(** *** C69_rectangular_refuted: for a matrix A of [m] rows and [n] columns, [m] not [n] and both over one, none of the
    documented preconditioners gets to the solver: neither a matrix of the shape of A, nor two factors
    the first of which has [m] rows, nor an R factor of order [n], nor a function that accepts the
    vectors of [m] entries that 'notransp' stands for; the trial raises an error. *)
Theorem C69_rectangular_refuted : forall m n one, m <> n -> 1 < m -> 1 < n ->
  (forall p f, nrows p = m -> svds_prec m (Some (PMat p)) None = Ok f -> trial one m n f = Err) /\
  (forall p1 p2 f, nrows p1 = m -> svds_prec m (Some (PMat p1)) (Some (PMat p2)) = Ok f -> trial one m n f = Err) /\
  (forall p2 f, nrows p2 = n -> svds_prec m (Some PEmpty) (Some (PMat p2)) = Ok f -> trial one m n f = Err) /\
  (forall g f, (forall x, length x <> m -> g false x = None) ->
     svds_prec m (Some (PFun g)) None = Ok f -> trial one m n f = Err).
Proof.
  intros m n one N _ _.
  assert (T : length (tail_of m (repeat one (m + n))) = n)
    by (unfold tail_of; rewrite skipn_length, repeat_length; lia).
  assert (D : forall p, nrows p = m -> ldiv solve nrows p (tail_of m (repeat one (m + n))) = None).
  { intros p R. unfold ldiv. rewrite R, T, (proj2 (Nat.eqb_neq _ _) N). reflexivity. }
  assert (Z : forall f : pmode -> list K -> option (list K), f Aug (repeat one (m + n)) = None -> trial one m n (Some f) = Err).
  { intros f F. unfold trial. rewrite F. destruct (f AHA (repeat one n)), (f AAH (repeat one m)); reflexivity. }
  split; [|split; [|split]].
  - intros p f R E. injection E as <-. apply Z. cbn [prec_mat]. rewrite R, (D p R). reflexivity.
  - intros p1 p2 f R E. injection E as <-. apply Z. cbn [prec_two]. rewrite R, (D p1 R). reflexivity.
  - intros p2 f R E. injection E as <-. unfold trial. cbn [prec_two].
    assert (F : ldiv solve nrows p2 (repeat one m) = None).
    { unfold ldiv. rewrite R, repeat_length, (proj2 (Nat.eqb_neq n m)) by congruence. reflexivity. }
    rewrite F. cbn [bind]. match goal with |- match ?e with Some _ => _ | None => _ end = _ => destruct e; reflexivity end.
  - intros g f G E. injection E as <-. apply Z. cbn [prec_fun]. rewrite G by congruence. reflexivity.
Qed.
End Prec.

(** Diagonal matrices of integers, divided when there is no remainder. *)
Definition diag_mul (p x : list Z) : list Z := map (fun '(a, b) => (a * b)%Z) (combine p x).
Definition diag_solve (p x : list Z) : option (list Z) :=
  let y := map (fun '(a, b) => (b / a)%Z) (combine p x) in
  if list_eq_dec Z.eq_dec (diag_mul p y) x then Some y else None.

Example C69_prec_case :
  regular diag_solve (@length Z) diag_mul 2 [1; -1]%Z /\
  (forall f, svds_prec diag_solve (fun p => p) (@length Z) 2 (Some (PMat [2; 4]%Z)) None = Ok (Some f) ->
     f AHA [4; 32]%Z = Some [1; 2]%Z /\ f Aug [2; 8; 6; 4]%Z = Some [3; 1; 1; 2]%Z) /\
  (forall f, svds_prec diag_solve (fun p => p) (@length Z) 3 (Some PEmpty) (Some (PMat [1; -1]%Z)) = Ok f -> trial 1%Z 3 2 f = Err).
Proof.
  split.
  { split; [reflexivity|]. intros [|a [|b [|c x]]] L; try discriminate L. exists [a; - b]%Z.
    unfold diag_solve, diag_mul. cbn [combine map].
    replace (a / 1)%Z with a by (symmetry; apply Z.div_1_r).
    replace (b / -1)%Z with (- b)%Z by (apply Z.div_unique_exact; lia).
    replace (1 * a)%Z with a by lia. replace (-1 * - b)%Z with b by lia.
    destruct (list_eq_dec Z.eq_dec [a; b] [a; b]); [auto|congruence]. }
  split; intros f E; injection E as <-; try split; reflexivity.
Qed.
