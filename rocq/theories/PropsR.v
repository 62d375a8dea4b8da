(** C66: the function eigs_sym of the R package. *)
From Coq Require Import ZArith List Bool Lia.
From Verif Require Import Base FieldsModel ParamsModel SvdsModel PyModel RModel SpecR.
Import ListNotations.
Open Scope nat_scope.

Section R.
Context {D K V : Type}.
Variables (d0 : D) (mk : D -> D -> K).
Variables (kzero : K) (kadd kmul : K -> K -> K) (cj kre : K -> K).

Notation rmatrix := (@rmatrix D).
Notation oper := (@oper D K).
Notation OM := (@OMat D K).

(** The element (i,j) of a matrix argument, as R stores matrices. *)
Definition elem (m : rmatrix) (i j : nat) : K :=
  let p := i + j * r_rows m in
  match r_kind m with
  | Real => mk (nth p (r_mem m) d0) d0
  | Cplx => mk (nth (2 * p) (r_mem m) d0) (nth (2 * p + 1) (r_mem m) d0)
  end.

(** It has one double per element, or two. *)
Definition stored (m : rmatrix) : Prop :=
  length (r_mem m) = (match r_kind m with Real => 1 | Cplx => 2 end) * (r_rows m * r_cols m).

Lemma get_nth : forall X (l : list X) p d, p < length l -> get l p = Some (nth p l d).
Proof. intros X l p d H. unfold get. apply nth_error_nth'. exact H. Qed.

Lemma position : forall i j rows cols, i < rows -> j < cols -> i + j * rows < rows * cols.
Proof. intros. nia. Qed.

Lemma entry_elem : forall (m : rmatrix) i j, stored m -> i < r_rows m -> j < r_cols m ->
  entry d0 mk (r_kind m) (r_rows m) (r_mem m) i j = Some (elem m i j).
Proof.
  intros m i j S Hi Hj. unfold stored in S. pose proof (position _ _ _ _ Hi Hj) as P.
  unfold entry, elem. destruct (r_kind m).
  - rewrite (get_nth _ _ _ d0) by lia. reflexivity.
  - rewrite (get_nth _ (r_mem m) (2 * _) d0) by lia. cbn [bind].
    rewrite (get_nth _ (r_mem m) (2 * _ + 1) d0) by lia. reflexivity.
Qed.

Lemma collect_map : forall X Y (f : X -> option Y) g l, (forall x, In x l -> f x = Some (g x)) ->
  collect (map f l) = Some (map g l).
Proof.
  induction l as [|a l IH]; intros H; [reflexivity|].
  cbn [map collect]. rewrite H by (left; reflexivity). cbn [bind].
  rewrite IH by (intros; apply H; right; assumption). reflexivity.
Qed.

Lemma row_times_some : forall cols a b x, length x = cols ->
  (forall j, j < cols -> a j = Some (b j)) ->
  row_times kzero kadd kmul cols a x =
  Some (fold_left (fun s j => kadd s (kmul (b j) (nth j x kzero))) (seq 0 cols) kzero).
Proof.
  intros cols a b x L H. unfold row_times.
  assert (G : forall l s, (forall j, In j l -> j < cols) ->
    fold_left (fun s j => s <- s ; e <- a j ; v <- get x j ; Some (kadd s (kmul e v))) l (Some s) =
    Some (fold_left (fun s j => kadd s (kmul (b j) (nth j x kzero))) l s)).
  { induction l as [|j l IH]; intros s Hl; [reflexivity|].
    cbn [fold_left bind]. rewrite (H j) by (apply Hl; left; reflexivity). cbn [bind].
    rewrite (get_nth _ x j kzero) by (rewrite L; apply Hl; left; reflexivity). cbn [bind].
    apply IH. intros; apply Hl; right; assumption. }
  apply G. intros j Hj. apply in_seq in Hj. lia.
Qed.

Lemma gemv_product : forall rows cols a b x, length x = cols ->
  (forall i j, i < rows -> j < cols -> a i j = Some (b i j)) ->
  exists y, gemv kzero kadd kmul rows cols a x = Some y /\
            is_product kzero kadd kmul rows cols b x y.
Proof.
  intros rows cols a b x L H. unfold gemv.
  rewrite (collect_map _ _ _ (fun i => fold_left (fun s j => kadd s (kmul (b i j) (nth j x kzero)))
                                                 (seq 0 cols) kzero)).
  - eexists. split; [reflexivity|]. split; [rewrite map_length, seq_length; reflexivity|].
    intros i Hi.
    set (g := fun i => fold_left _ _ _).
    rewrite (nth_indep _ kzero (g 0)) by (rewrite map_length, seq_length; exact Hi).
    rewrite map_nth, seq_nth by exact Hi. reflexivity.
  - intros i Hi. apply in_seq in Hi. apply row_times_some; [exact L|].
    intros j Hj. apply H; lia.
Qed.

(** conjugation, and the real part, as in the complex numbers *)
Hypothesis real_conj : forall d, cj (mk d d0) = mk d d0.
Hypothesis real_part : forall a, a = cj a -> kre a = a.

Lemma hemm_elem : forall (m : rmatrix) n i j, stored m -> r_rows m = n -> r_cols m = n ->
  hermitian cj n (elem m) -> i < n -> j < n ->
  hemm_entry d0 mk cj kre (r_kind m) n (r_mem m) i j = Some (elem m i j).
Proof.
  intros m n i j S R C H Hi Hj. unfold hemm_entry.
  assert (E : forall i j, i < n -> j < n ->
     entry d0 mk (r_kind m) n (r_mem m) i j = Some (elem m i j)).
  { intros a b Ha Hb. rewrite <- R. apply entry_elem; [exact S|rewrite R; exact Ha|rewrite C; exact Hb]. }
  destruct (j <? i) eqn:J; [apply E; assumption|].
  destruct (i <? j) eqn:I.
  - rewrite E by assumption. cbn [bind]. f_equal.
    pose proof (H i j Hi Hj) as HH. rewrite HH.
    destruct (r_kind m) eqn:Kd; [|reflexivity].
    unfold elem. rewrite Kd. rewrite real_conj. reflexivity.
  - apply Nat.ltb_ge in I, J. assert (i = j) by lia. subst j.
    rewrite E by assumption. cbn [bind]. f_equal.
    destruct (r_kind m) eqn:Kd; [reflexivity|].
    apply real_part. apply H; assumption.
Qed.

Notation run_product := (product d0 mk kzero kadd kmul cj kre).

(** *** C66_A: the solver sees the matrix the user gave.
    For every Hermitian matrix argument of any class and any isreal, a product of the solver
    is the product with that matrix.  The only case refused is a complex matrix declared real. *)
Theorem C66_A : forall (m : rmatrix) isreal n x, stored m -> r_rows m = n -> r_cols m = n ->
  hermitian cj n (elem m) -> length x = n ->
  match run_product (run_kind isreal (OM m)) n (hand isreal (OM m)) x with
  | Value y => is_product kzero kadd kmul n n (elem m) x y
  | Raised => isreal = Some true /\ r_kind m = Cplx
  | Undefined => False
  end.
Proof.
  intros m isreal n x S R C H L.
  assert (P1 : exists y, gemv kzero kadd kmul n n (hemm_entry d0 mk cj kre (r_kind m) n (r_mem m)) x = Some y
                 /\ is_product kzero kadd kmul n n (elem m) x y)
    by (apply gemv_product; [exact L|]; intros; apply hemm_elem; assumption).
  assert (P2 : exists y, gemv kzero kadd kmul n n (entry d0 mk (r_kind m) n (r_mem m)) x = Some y
                 /\ is_product kzero kadd kmul n n (elem m) x y).
  { apply gemv_product; [exact L|]. intros i j Hi Hj. rewrite <- R.
    apply entry_elem; [exact S|rewrite R; exact Hi|rewrite C; exact Hj]. }
  destruct P1 as (y1 & G1 & Y1). destruct P2 as (y2 & G2 & Y2).
  assert (T : forall k, k = r_kind m \/ k = Cplx ->
     match run_product k n (HTimes m) x with
     | Value y => is_product kzero kadd kmul n n (elem m) x y
     | _ => False
     end).
  { intros k Hk. unfold product. rewrite R, C, G2. unfold copy_result. cbn [f_kind f_values].
    rewrite (proj1 Y2), Nat.eqb_refl.
    destruct k, (r_kind m); try exact Y2. destruct Hk; discriminate. }
  assert (W : match run_product (r_kind m) n (HRaw m) x with
              | Value y => is_product kzero kadd kmul n n (elem m) x y
              | _ => False
              end).
  { unfold product. assert (SK : same_kind (r_kind m) (r_kind m) = true) by (destruct (r_kind m); reflexivity).
    rewrite SK, G1, G2. destruct (r_class m); cbn [defined]; assumption. }
  unfold run_kind, suggested, hand.
  destruct isreal as [b|].
  - destruct (same_kind (kind_of b) (r_kind m)) eqn:SK.
    + assert (E : kind_of b = r_kind m) by (destruct b, (r_kind m); (reflexivity || discriminate)).
      rewrite E. specialize (T (r_kind m) (or_introl eq_refl)).
      destruct (r_class m);
        [destruct (run_product (r_kind m) n (HRaw m) x)|destruct (run_product (r_kind m) n (HRaw m) x)
        |destruct (run_product (r_kind m) n (HRaw m) x)|destruct (run_product (r_kind m) n (HTimes m) x)
        |destruct (run_product (r_kind m) n (HTimes m) x)]; (assumption || contradiction).
    + assert (E : (match r_class m with Plain | GeMatrix | CSparse => HTimes m | _ => HTimes m end) = @HTimes D K m)
        by (destruct (r_class m); reflexivity).
      rewrite E. destruct b; cbn [kind_of] in *.
      * destruct (r_kind m) eqn:Kd; [discriminate|].
        unfold product. rewrite R, C, Kd, G2. unfold copy_result. cbn [f_kind].
        split; reflexivity.
      * specialize (T Cplx (or_intror eq_refl)).
        destruct (run_product Cplx n (HTimes m) x); (assumption || contradiction).
  - specialize (T (r_kind m) (or_introl eq_refl)).
    destruct (r_class m);
      [destruct (run_product (r_kind m) n (HRaw m) x)|destruct (run_product (r_kind m) n (HRaw m) x)
      |destruct (run_product (r_kind m) n (HRaw m) x)|destruct (run_product (r_kind m) n (HTimes m) x)
      |destruct (run_product (r_kind m) n (HTimes m) x)]; (assumption || contradiction).
Qed.

(** *** C66_function: an argument that is a function is called with the vector and its result
    is used as it is; results of the wrong length, and complex results in a real run, are errors. *)
Theorem C66_function : forall f isreal n k (x : list K),
  let r := f x in
  match run_product k n (hand isreal (OFun f)) x with
  | Value y => y = f_values r /\ length y = n
  | Raised => length (f_values r) <> n \/ (k = Real /\ f_kind r = Cplx)
  | Undefined => False
  end.
Proof.
  intros f isreal n k x. cbn [hand product]. unfold copy_result.
  destruct k, (f_kind (f x)) eqn:E; cbv zeta;
    try (right; split; reflexivity);
    (destruct (length (f_values (f x)) =? n) eqn:L;
      [apply Nat.eqb_eq in L; split; [reflexivity|exact L]
      |apply Nat.eqb_neq in L; left; exact L]).
Qed.

(** *** C66_function_default: when the kind is not given, every result of the right length of a
    function is used, real or complex. *)
Theorem C66_function_default : forall f n (x : list K), length (f_values (f x)) = n ->
  run_product (run_kind (D := D) None (OFun f)) n (hand None (OFun f)) x = Value (f_values (f x)).
Proof.
  intros f n x L. cbn [hand product run_kind suggested]. unfold copy_result.
  destruct (f_kind (f x)); cbv zeta; rewrite L, Nat.eqb_refl; reflexivity.
Qed.

(** *** C66_B_partial: the mass matrix, unless it is a plain matrix of another kind than the run
    and isreal was not given. *)
Theorem C66_B_partial : forall (A : oper) (m : rmatrix) isreal n x,
  stored m -> r_rows m = n -> r_cols m = n -> hermitian cj n (elem m) -> length x = n ->
  isreal <> None \/ r_class m <> Plain \/ r_kind m = suggested A ->
  match run_product (run_kind isreal A) n (hand isreal (OM m)) x with
  | Value y => is_product kzero kadd kmul n n (elem m) x y
  | Raised => run_kind isreal A <> r_kind m
  | Undefined => False
  end.
Proof.
  intros A m isreal n x S R C H L Q.
  destruct isreal as [b|].
  - pose proof (C66_A m (Some b) n x S R C H L) as P. unfold run_kind in *.
    destruct (run_product (kind_of b) n (hand (Some b) (OM m)) x); try exact P.
    destruct P as [E1 E2]. inversion E1. subst b. rewrite E2. discriminate.
  - pose proof (C66_A m None n x S R C H L) as P. unfold run_kind in *. cbn [suggested] in P.
    destruct (same_kind (suggested A) (r_kind m)) eqn:SK.
    + assert (E : suggested A = r_kind m) by (destruct (suggested A), (r_kind m); (reflexivity || discriminate)).
      rewrite E. destruct (run_product (r_kind m) n (hand None (OM m)) x); try exact P.
      destruct P; discriminate.
    + assert (NE : suggested A <> r_kind m)
        by (intros E; rewrite E in SK; destruct (r_kind m); discriminate).
      unfold hand in *. unfold product in *.
      destruct (r_class m) eqn:CL.
      * destruct Q as [Q|[Q|Q]]; [congruence|congruence|symmetry in Q; contradiction].
      * rewrite SK, CL. exact NE.
      * rewrite SK, CL. exact NE.
      * destruct (gemv kzero kadd kmul (r_rows m) (r_cols m) (entry d0 mk (r_kind m) (r_rows m) (r_mem m)) x) eqn:G;
          [|exact NE].
        destruct (r_kind m) eqn:Kd, (suggested A) eqn:SA; try discriminate;
          cbn [copy_result f_kind f_values] in *; try exact NE.
        destruct (length l =? n); [exact P|exact NE].
      * destruct (gemv kzero kadd kmul (r_rows m) (r_cols m) (entry d0 mk (r_kind m) (r_rows m) (r_mem m)) x) eqn:G;
          [|exact NE].
        destruct (r_kind m) eqn:Kd, (suggested A) eqn:SA; try discriminate;
          cbn [copy_result f_kind f_values] in *; try exact NE.
        destruct (length l =? n); [exact P|exact NE].
Qed.

Lemma collect_none : forall X (l : list (option X)), In None l -> collect l = None.
Proof.
  induction l as [|a l IH]; intros H; [contradiction|].
  cbn [collect]. destruct H as [H|H]; [subst a; reflexivity|].
  destruct a; [|reflexivity]. cbn [bind]. rewrite IH by exact H. reflexivity.
Qed.

Lemma row_times_none : forall cols a x j, j < cols -> a j = None ->
  row_times kzero kadd kmul cols a x = None.
Proof.
  intros cols a x j Hj HN. unfold row_times.
  set (f := fun s j => s <- s ; e <- a j ; v <- get x j ; Some (kadd s (kmul e v))).
  assert (Z : forall l, fold_left f l None = None) by (induction l; [reflexivity|exact IHl]).
  assert (G : forall l s, In j l -> fold_left f l s = None).
  { induction l as [|c l IH]; intros s Hl; [contradiction|]. cbn [fold_left].
    destruct Hl as [Hl|Hl]; [|apply IH; exact Hl]. subst c.
    assert (E : f s j = None) by (unfold f; destruct s; cbn [bind]; [rewrite HN|]; reflexivity).
    rewrite E. apply Z. }
  apply G. apply in_seq. lia.
Qed.

(** *** C66_B_bounds_refuted: A is a function, or complex, B is an ordinary real matrix and
    isreal is not given: every product with B reads beyond the end of B. *)
Theorem C66_B_bounds_refuted : forall (A : oper) (m : rmatrix) n x,
  suggested A = Cplx -> r_class m = Plain -> r_kind m = Real ->
  stored m -> r_rows m = n -> r_cols m = n -> 0 < n ->
  run_product (run_kind None A) n (hand None (OM m)) x = Undefined.
Proof.
  intros A m n x SA CL Kd S R C Hn. unfold run_kind. rewrite SA. unfold hand. rewrite CL.
  unfold product. rewrite CL. unfold stored in S. rewrite Kd, R, C in S.
  assert (G : gemv kzero kadd kmul n n (hemm_entry d0 mk cj kre Cplx n (r_mem m)) x = None).
  { unfold gemv. apply collect_none. apply in_map_iff. exists (n - 1). split; [|apply in_seq; lia].
    apply row_times_none with (j := n - 1); [lia|].
    unfold hemm_entry. rewrite Nat.ltb_irrefl. unfold entry.
    assert (E : get (r_mem m) (2 * (n - 1 + (n - 1) * n) + 1) = None)
      by (unfold get; apply nth_error_None; nia).
    destruct (get (r_mem m) (2 * (n - 1 + (n - 1) * n))); [|reflexivity].
    cbn [bind]. rewrite E. reflexivity. }
  rewrite G. reflexivity.
Qed.

(** ** The call and its result *)
Variable vzero : V.
Variable solve : rmatrix -> list K -> fresult (K := K).
Notation setup := (eigs_setup kzero vzero solve).
Notation args := (eigs_args (D := D) (K := K) (V := V)).

(** *** C66_arrays: the guesses and the constraints reach the solver.
    The array has the constraints first, then the guesses, and room for every eigenvector. *)
Theorem C66_arrays : forall (a : args) c, setup a = Some c ->
  c_numOrthoConst c = length (match e_ortho a with Some (_, o) => o | None => [] end) /\
  c_initSize c = length (match e_x0 a with Some (_, o) => o | None => [] end) /\
  firstn (c_numOrthoConst c) (c_evecs c) = match e_ortho a with Some (_, o) => o | None => [] end /\
  slice (c_numOrthoConst c) (c_numOrthoConst c + c_initSize c) (c_evecs c)
    = match e_x0 a with Some (_, o) => o | None => [] end /\
  length (c_evecs c) = c_numOrthoConst c + max (c_initSize c) (c_numEvals c) /\
  Z.of_nat (c_numEvals c) = e_NEig a /\ order_of a = Some (c_n c) /\
  (Z.of_nat (c_numEvals c) <= Z.of_nat (c_n c))%Z /\
  c_kind c = run_kind (e_isreal a) (e_A a) /\ c_A c = hand (e_isreal a) (e_A a) /\
  c_B c = option_map (hand (e_isreal a)) (e_B a) /\
  (forall r o, e_ortho a = Some (r, o) -> r = c_n c) /\
  (forall r o, e_x0 a = Some (r, o) -> r = c_n c) /\
  (forall m, e_B a = Some (OM m) -> r_rows m = c_n c /\ r_cols m = c_n c).
Proof.
  intros a c H. unfold eigs_setup in H.
  destruct (order_of a) as [n|] eqn:O; [|discriminate]. cbn [bind] in H.
  match type of H with (if ?b then _ else _) = _ => destruct b eqn:B end; [discriminate|].
  destruct ((e_NEig a >? Z.of_nat n)%Z || (e_NEig a <? 0)%Z) eqn:N; [discriminate|].
  apply orb_false_iff in N. destruct N as [N1 N2]. apply Z.ltb_ge in N2.
  rewrite Z.gtb_ltb in N1. apply Z.ltb_ge in N1.
  destruct (r_target vzero (e_which a) (e_shifts a)) as [t|]; [|discriminate]. cbn [bind] in H.
  destruct (block_of n (e_x0 a)) as [x0|] eqn:X; [|discriminate]. cbn [bind] in H.
  destruct (block_of n (e_ortho a)) as [o|] eqn:OO; [|discriminate]. cbn [bind] in H.
  destruct (precf solve n (e_prec a)) as [p|]; [|discriminate]. cbn [bind] in H.
  injection H as H. subst c.
  cbn [c_numOrthoConst c_initSize c_evecs c_numEvals c_n c_kind c_A c_B].
  assert (EX : match e_x0 a with Some (_, o) => o | None => [] end = x0 /\
               forall r o, e_x0 a = Some (r, o) -> r = n).
  { unfold block_of in X. destruct (e_x0 a) as [[r q]|].
    - destruct (r =? n) eqn:E; [|discriminate]. apply Nat.eqb_eq in E. injection X as X. subst.
      split; [reflexivity|]. intros r' o' HH. injection HH as H1 H2. symmetry; exact H1.
    - injection X as X. subst. split; [reflexivity|discriminate]. }
  assert (EO : match e_ortho a with Some (_, o) => o | None => [] end = o /\
               forall r o, e_ortho a = Some (r, o) -> r = n).
  { unfold block_of in OO. destruct (e_ortho a) as [[r q]|].
    - destruct (r =? n) eqn:E; [|discriminate]. apply Nat.eqb_eq in E. injection OO as X'. subst.
      split; [reflexivity|]. intros r' o' HH. injection HH as H1 H2. symmetry; exact H1.
    - injection OO as X'. subst. split; [reflexivity|discriminate]. }
  destruct EX as [EX EX2]. destruct EO as [EO EO2]. rewrite EX, EO.
  split; [reflexivity|]. split; [reflexivity|].
  split. { rewrite firstn_app, Nat.sub_diag, firstn_all. cbn. apply app_nil_r. }
  split. { unfold slice. rewrite skipn_app, Nat.sub_diag, skipn_all. cbn [skipn app].
           replace (length o + length x0 - length o) with (length x0) by lia.
           rewrite firstn_app, Nat.sub_diag, firstn_all. cbn. apply app_nil_r. }
  split. { rewrite !app_length, repeat_length. lia. }
  split; [rewrite Z2Nat.id; [reflexivity|exact N2]|].
  split; [reflexivity|].
  split; [rewrite Z2Nat.id; [exact N1|exact N2]|].
  do 3 (split; [reflexivity|]). split; [exact EO2|]. split; [exact EX2|].
  intros m HB. rewrite HB in B. apply negb_false_iff, andb_true_iff in B.
  destruct B as [B1 B2]. apply Nat.eqb_eq in B1, B2. split; assumption.
Qed.

(** The documented meaning of [which]. *)
Definition meaning (w : rwhich (V := V)) : option looks_for :=
  match w with
  | WLA => Some Largest | WLM => Some LargestMagnitude | WSA => Some Smallest
  | WCGT => Some ClosestAbove | WCLT => Some ClosestBelow | WSM | WNumeric _ => Some Closest
  | WBad => None
  end.
Definition target_value (l : looks_for) : Z :=
  match l with
  | Smallest => 0 | Largest => 1 | ClosestAbove => 2 | ClosestBelow => 3 | Closest => 4
  | LargestMagnitude => 5
  end%Z.

(** *** C66_target: the target given to the solver is the one documented, around the points
    given, or around zero; an unknown name is refused. *)
Theorem C66_target : forall (a : args) c, setup a = Some c ->
  meaning (e_which a) = None \/
  exists w, meaning (e_which a) = Some w /\ c_target c = target_value w /\
    c_shifts c = match e_which a with
                 | WNumeric l => l
                 | _ => match e_shifts a with
                        | Some l => l
                        | None => match w with
                                  | Smallest | Largest | LargestMagnitude => []
                                  | _ => [vzero]
                                  end
                        end
                 end.
Proof.
  intros a c H. unfold eigs_setup in H.
  destruct (order_of a) as [n|]; [|discriminate]. cbn [bind] in H.
  match type of H with (if ?b then _ else _) = _ => destruct b end; [discriminate|].
  match type of H with (if ?b then _ else _) = _ => destruct b end; [discriminate|].
  destruct (r_target vzero (e_which a) (e_shifts a)) as [t|] eqn:T; [|discriminate]. cbn [bind] in H.
  destruct (block_of n (e_x0 a)) as [x0|]; [|discriminate]. cbn [bind] in H.
  destruct (block_of n (e_ortho a)) as [o|]; [|discriminate]. cbn [bind] in H.
  destruct (precf solve n (e_prec a)) as [p|]; [|discriminate]. cbn [bind] in H.
  injection H as H. subst c. cbn [c_target c_shifts]. right.
  destruct (e_which a); cbn [r_target] in T; [ | | | | | | |discriminate];
    injection T as T; subst t;
    (eexists; split; [reflexivity|]; split; [reflexivity|]);
    cbn [snd]; try reflexivity; destruct (e_shifts a); reflexivity.
Qed.

(** *** C66_shape: the order of the problem is the one of the square matrix A, or the one given
    with a function; other shapes are errors. *)
Theorem C66_shape : forall (a : args),
  (forall c, setup a = Some c ->
     match e_A a with
     | OMat m => r_rows m = c_n c /\ r_cols m = c_n c
     | OFun _ => c_n c = e_n a
     end) /\
  (forall m, e_A a = OM m -> r_rows m <> r_cols m -> setup a = None).
Proof.
  intros a. split.
  - intros c H. destruct (C66_arrays a c H) as (_ & _ & _ & _ & _ & _ & O & _). unfold order_of in O.
    destruct (e_A a) as [f|m]; [congruence|].
    destruct (r_rows m =? r_cols m) eqn:E; [|discriminate]. apply Nat.eqb_eq in E. split; congruence.
  - intros m E N. unfold eigs_setup, order_of. rewrite E.
    destruct (r_rows m =? r_cols m) eqn:Q; [apply Nat.eqb_eq in Q; contradiction|reflexivity].
Qed.

Theorem C66_bad_target : forall (a : args), meaning (e_which a) = None -> setup a = None.
Proof.
  intros a H. unfold eigs_setup. destruct (order_of a); [|reflexivity]. cbn [bind].
  match goal with |- (if ?b then _ else _) = _ => destruct b end; [reflexivity|].
  match goal with |- (if ?b then _ else _) = _ => destruct b end; [reflexivity|].
  destruct (e_which a); try discriminate H. reflexivity.
Qed.

(** *** C66_LM_refuted: the documented which="LM" without targetShifts is always refused by the
    solver, for lack of shifts or for an earlier reason. *)
Theorem C66_LM_refuted : forall (a : args) c meps o p, setup a = Some c ->
  e_shifts a = None -> e_which a = WLM ->
  (p P_target = c_target c)%Z -> (p P_numTargetShifts = Z.of_nat (length (c_shifts c)))%Z ->
  check_input meps o p <> 0%Z.
Proof.
  intros a c meps o p H NS W PT PN.
  destruct (C66_target a c H) as [M|(w & M & T & Sh)].
  { rewrite (C66_bad_target a M) in H. discriminate. }
  rewrite NS in Sh. rewrite W in M, Sh. cbn [meaning] in M. injection M as M. subst w.
  cbn [target_value] in T. rewrite T in PT. rewrite Sh in PN. cbn [length Z.of_nat] in PN.
  unfold check_input. rewrite PT, PN.
  repeat match goal with |- (if ?b then ?x else _) <> _ =>
    match x with (if _ then _ else _) => fail 1 | _ => destruct b; [discriminate|] end end.
  cbn. discriminate.
Qed.

(** *** C66_shifts: with any other name, and with LM when shifts are given, the solver does not
    complain about missing shifts. *)
Theorem C66_shifts : forall (a : args) c meps o p, setup a = Some c ->
  e_which a <> WLM \/ e_shifts a <> None ->
  e_shifts a <> Some [] -> e_which a <> WNumeric [] ->
  (p P_target = c_target c)%Z -> (p P_numTargetShifts = Z.of_nat (length (c_shifts c)))%Z ->
  check_input meps o p <> (-14)%Z.
Proof.
  intros a c meps o p H Q E1 E2 PT PN.
  destruct (C66_target a c H) as [M|(w & M & T & Sh)].
  { rewrite (C66_bad_target a M) in H. discriminate. }
  assert (G : w = Smallest \/ w = Largest \/ (0 < p P_numTargetShifts)%Z).
  { assert (NE : c_shifts c <> [] \/ w = Smallest \/ w = Largest).
    { rewrite Sh. destruct (e_which a); cbn [meaning] in M; try discriminate M;
        injection M as M; subst w; try (right; left; reflexivity); try (right; right; reflexivity);
        left; destruct (e_shifts a) as [[|]|]; try congruence; destruct Q; congruence. }
    destruct NE as [NE|NE]; [|tauto]. right; right. rewrite PN.
    destruct (c_shifts c); [congruence|]. cbn [length]. lia. }
  unfold check_input.
  repeat match goal with |- (if ?b then ?x else _) <> _ =>
    match x with (if _ then _ else _) => fail 1 | _ => destruct b; [discriminate|] end end.
  destruct G as [G|[G|G]].
  - subst w. cbn [target_value] in T. rewrite PT, T. cbn. discriminate.
  - subst w. cbn [target_value] in T. rewrite PT, T. cbn. discriminate.
  - apply Z.leb_gt in G. rewrite G.
    match goal with |- (if ?b then _ else _) <> _ => destruct b; [|discriminate] end.
    match goal with |- (if ?b then _ else _) <> _ => destruct b; discriminate end.
Qed.

Notation eigs := (eigs_sym kzero vzero solve).

(** *** C66_returned: a result is returned only when the solver succeeded; it has all the values
    and norms, and the vectors found, without the constraints. *)
Theorem C66_returned : forall run (a : args) values vectors rnorms,
  eigs run a = RReturned values vectors rnorms ->
  exists c, setup a = Some c /\ x_ret (run c) = 0%Z /\
    values = x_evals (run c) /\ rnorms = x_rnorms (run c) /\
    (forall ortho found rest, length ortho = c_numOrthoConst c -> length found = x_initSize (run c) ->
       x_evecs (run c) = ortho ++ found ++ rest -> vectors = found).
Proof.
  intros run a values vectors rnorms H. unfold eigs_sym in H.
  destruct (setup a) as [c|]; [|discriminate]. unfold eigs_finish in H.
  destruct (x_initSize (run c) =? 0); [discriminate|].
  destruct (x_ret (run c) =? 0)%Z eqn:R; [|discriminate]. apply Z.eqb_eq in R.
  injection H as H1 H2 H3. subst. exists c. do 4 (split; [auto|]).
  intros ortho found rest L1 L2 E. rewrite E, <- L1, <- L2. unfold slice.
  rewrite skipn_app, Nat.sub_diag, skipn_all. cbn [skipn app].
  replace (length ortho + length found - length ortho) with (length found) by lia.
  rewrite firstn_app, Nat.sub_diag, firstn_all. cbn. apply app_nil_r.
Qed.

(** *** C66_raised_partial: when the solver fails an error is raised; it carries the code when
    the number of pairs reported is not zero. *)
Theorem C66_raised_partial : forall run (a : args) c, setup a = Some c -> x_ret (run c) <> 0%Z ->
  (forall v w r, eigs run a <> RReturned v w r) /\
  (x_initSize (run c) <> 0 -> eigs run a = RError (x_ret (run c))).
Proof.
  intros run a c S R. unfold eigs_sym. rewrite S. unfold eigs_finish.
  apply Z.eqb_neq in R. rewrite R. split.
  - intros v w r. destruct (x_initSize (run c) =? 0); discriminate.
  - intros N. apply Nat.eqb_neq in N. rewrite N. reflexivity.
Qed.

(** *** C66_message_refuted: when nothing converged the reason of the failure is lost, and a
    call that asks for no eigenvalue fails although the solver succeeds. *)
Theorem C66_message_refuted : forall run (a : args) c, setup a = Some c ->
  x_initSize (run c) = 0 -> eigs run a = ROther.
Proof.
  intros run a c S N. unfold eigs_sym. rewrite S. unfold eigs_finish. rewrite N. reflexivity.
Qed.

(** *** C66_prec: a preconditioner that is a function is used as it is; a matrix is refused unless
    it is an ordinary square matrix of the order of A. *)
Theorem C66_prec : forall (a : args) c, setup a = Some c ->
  match e_prec a with
  | None => c_prec c = None
  | Some (OFun f) => c_prec c = Some f
  | Some (OMat m) => c_prec c = Some (solve m) /\ r_rows m = c_n c /\ r_cols m = c_n c
  end.
Proof.
  intros a c H. unfold eigs_setup in H.
  destruct (order_of a) as [n|]; [|discriminate]. cbn [bind] in H.
  match type of H with (if ?b then _ else _) = _ => destruct b end; [discriminate|].
  match type of H with (if ?b then _ else _) = _ => destruct b end; [discriminate|].
  destruct (r_target vzero (e_which a) (e_shifts a)) as [t|]; [|discriminate]. cbn [bind] in H.
  destruct (block_of n (e_x0 a)) as [x0|]; [|discriminate]. cbn [bind] in H.
  destruct (block_of n (e_ortho a)) as [o|]; [|discriminate]. cbn [bind] in H.
  unfold precf in H. destruct (e_prec a) as [[f|m]|].
  - cbn [bind] in H. injection H as H. subst c. reflexivity.
  - destruct (r_class m); try discriminate H.
    destruct ((r_rows m =? n) && (r_cols m =? n)) eqn:E; [|discriminate H].
    apply andb_true_iff in E. destruct E as [E F]. apply Nat.eqb_eq in E, F.
    cbn [bind] in H. injection H as H. subst c. auto.
  - cbn [bind] in H. injection H as H. subst c. reflexivity.
Qed.

(** *** C66_test_partial: the user's convergence test is given the value and the norm, and a vector
    of the right length that begins with the right element. *)
Theorem C66_test_partial : forall n (eval : V) (evec : list K) rnorm, length evec = n -> 0 < n ->
  exists v, conv_test_seen n eval evec rnorm = Some ([eval], v, [rnorm]) /\
            length v = n /\ nth_error v 0 = nth_error evec 0.
Proof.
  intros n eval evec rnorm L P. destruct evec as [|e t]; [cbn in L; lia|].
  exists (repeat e n). unfold conv_test_seen. cbn. split; [reflexivity|].
  split; [apply repeat_length|]. destruct n; [lia|]. reflexivity.
Qed.

(** *** C66_test_refuted: unless all its elements are equal, the vector is not the approximate
    eigenvector. *)
Theorem C66_test_refuted : forall n (eval : V) (evec : list K) rnorm i, length evec = n ->
  i < n -> nth_error evec i <> nth_error evec 0 ->
  forall v, conv_test_seen n eval evec rnorm = Some ([eval], v, [rnorm]) -> v <> evec.
Proof.
  intros n eval evec rnorm i L Hi NE v H E. subst v.
  destruct evec as [|e t]; [cbn in L; lia|]. cbn in H. injection H as H.
  assert (A : forall j, j < n -> nth_error (e :: t) j = Some e)
    by (intros j Hj; rewrite <- H; apply nth_error_repeat; exact Hj).
  apply NE. rewrite !A by lia. reflexivity.
Qed.
End R.

(** ** A concrete case: Gaussian integers *)
Definition gauss := (Z * Z)%type.
Definition g_add (a b : gauss) : gauss := (fst a + fst b, snd a + snd b)%Z.
Definition g_mul (a b : gauss) : gauss :=
  (fst a * fst b - snd a * snd b, fst a * snd b + snd a * fst b)%Z.
Definition g_cj (a : gauss) : gauss := (fst a, - snd a)%Z.
Definition g_re (a : gauss) : gauss := (fst a, 0)%Z.
Definition g_mk (a b : Z) : gauss := (a, b).

Lemma g_laws : (forall d, g_cj (g_mk d 0%Z) = g_mk d 0%Z) /\ (forall a, a = g_cj a -> g_re a = a).
Proof.
  split; [reflexivity|]. intros [a b] H. unfold g_cj, g_re in *. cbn in *. injection H as H.
  f_equal. lia.
Qed.

(** [[2, i], [-i, 3]] *)
Definition hermitian2 (k : class) : @rmatrix Z :=
  {| r_class := k; r_kind := Cplx; r_rows := 2; r_cols := 2; r_mem := [2; 0; 0; -1; 0; 1; 3; 0]%Z |}.
(** [[5, 1], [1, 7]] *)
Definition symmetric2 (k : class) : @rmatrix Z :=
  {| r_class := k; r_kind := Real; r_rows := 2; r_cols := 2; r_mem := [5; 1; 1; 7]%Z |}.

Example C66_case :
  stored (hermitian2 Plain) /\ hermitian g_cj 2 (elem 0%Z g_mk (hermitian2 Plain)) /\
  stored (symmetric2 Plain) /\ hermitian g_cj 2 (elem 0%Z g_mk (symmetric2 Plain)) /\
  product 0%Z g_mk (0, 0)%Z g_add g_mul g_cj g_re
    (run_kind None (OMat (K := gauss) (hermitian2 Plain))) 2 (hand None (OMat (hermitian2 Plain))) [(0,0); (1,0)]%Z
  = Value [(0,1); (3,0)]%Z.
Proof.
  repeat split; try reflexivity;
    intros [|[|i]] [|[|j]] Hi Hj; try lia; reflexivity.
Qed.

(** *** C66_B_wrong_refuted: A is real, B is a complex Hermitian matrix and isreal is not given:
    the product with B is a wrong one, and no error is raised. *)
Theorem C66_B_wrong_refuted : exists (A B : @rmatrix Z) x y,
  stored A /\ stored B /\ hermitian g_cj 2 (elem 0%Z g_mk A) /\ hermitian g_cj 2 (elem 0%Z g_mk B) /\
  length x = 2 /\
  product 0%Z g_mk (0, 0)%Z g_add g_mul g_cj g_re
    (run_kind None (OMat (K := gauss) A)) 2 (hand None (OMat B)) x = Value y /\
  ~ is_product (0, 0)%Z g_add g_mul 2 2 (elem 0%Z g_mk B) x y.
Proof.
  exists (symmetric2 Plain), (hermitian2 Plain), [(0,0); (1,0)]%Z, [(0,0); (-1,0)]%Z.
  destruct C66_case as (S1 & H1 & S2 & H2 & _).
  split; [exact S2|]. split; [exact S1|]. split; [exact H2|]. split; [exact H1|].
  split; [reflexivity|]. split; [reflexivity|].
  intros [_ P]. specialize (P 0 ltac:(lia)). discriminate P.
Qed.

(** *** C66_prec_matrix_refuted: the documentation says that a matrix prec is used as prec %*% x;
    it is used as solve(prec, x). *)
Theorem C66_prec_matrix_refuted : exists (m : @rmatrix Z) (x : list gauss),
  stored m /\
  forall solve : @rmatrix Z -> list gauss -> @fresult gauss,
  (forall y, y = f_values (solve m x) -> is_product (0, 0)%Z g_add g_mul 1 1 (elem 0%Z g_mk m) y x) ->
  forall (a : @eigs_args Z gauss Z) c,
    e_prec a = Some (OMat m) -> eigs_setup (0, 0)%Z 0%Z solve a = Some c ->
    exists f, c_prec c = Some f /\
      ~ is_product (0, 0)%Z g_add g_mul 1 1 (elem 0%Z g_mk m) x (f_values (f x)).
Proof.
  exists {| r_class := Plain; r_kind := Real; r_rows := 1; r_cols := 1; r_mem := [2%Z] |}, [(2, 0)%Z].
  split; [reflexivity|]. intros solve HS a c HP HC.
  pose proof (C66_prec (K := gauss) (0, 0)%Z 0%Z solve a c HC) as P. rewrite HP in P. destruct P as (P & _).
  exists (solve {| r_class := Plain; r_kind := Real; r_rows := 1; r_cols := 1; r_mem := [2%Z] |}).
  split; [exact P|]. intros [L Q]. specialize (HS _ eq_refl). destruct HS as [_ HS].
  specialize (Q 0 ltac:(lia)). specialize (HS 0 ltac:(lia)). cbn in Q, HS.
  unfold nth in HS. destruct (f_values _) as [|[u w] l]; [discriminate L|].
  cbn in Q, HS. unfold g_add, g_mul, g_mk in *. cbn in *.
  inversion Q; subst. discriminate HS.
Qed.

(** A call that meets the hypotheses: two pairs of a complex matrix, one constraint, one guess. *)
Example C66_call : exists c,
  eigs_setup (0, 0)%Z 0%Z (fun _ x => {| f_kind := Real; f_values := x |})
    {| e_A := OMat (hermitian2 Plain); e_n := 0; e_B := Some (OMat (symmetric2 GeMatrix));
       e_NEig := 1; e_which := WLM; e_shifts := None; e_convTest := false;
       e_x0 := Some (2, [[(1,0); (0,0)]%Z]); e_ortho := Some (2, [[(0,0); (1,0)]%Z]);
       e_prec := None; e_isreal := None |} = Some c /\
  c_evecs c = [[(0,0); (1,0)]; [(1,0); (0,0)]]%Z /\ c_target c = 5%Z /\ c_shifts c = [] /\ c_kind c = Cplx.
Proof. eexists. split; [reflexivity|]. repeat split. Qed.
