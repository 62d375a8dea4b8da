(** C67: the function svds of the R package. *)
From Coq Require Import ZArith List Bool Lia.
From Verif Require Import Base FieldsModel ParamsModel SvdsModel PyModel RModel SpecR PropsR.
Import ListNotations.
Open Scope nat_scope.

Section R.
Context {D K V : Type}.
Variables (d0 : D) (mk : D -> D -> K).
Variables (kzero : K) (kadd kmul : K -> K -> K) (cj : K -> K).

Notation rmatrix := (@rmatrix D).
Notation sv_oper := (@sv_oper D K).
Notation SM := (@SMat D K).
Notation elem := (elem d0 mk).
Notation prod_of := (is_product kzero kadd kmul).

(** conjugation as in the complex numbers *)
Hypothesis real_conj : forall d, cj (mk d d0) = mk d d0.
Hypothesis conj_zero : cj kzero = kzero.
Hypothesis conj_add : forall a b, cj (kadd a b) = kadd (cj a) (cj b).
Hypothesis conj_mul : forall a b, cj (kmul a b) = kmul (cj a) (cj b).
Hypothesis conj_conj : forall a, cj (cj a) = a.

Lemma prod_ext : forall rows cols a b x y, (forall i j, i < rows -> j < cols -> a i j = b i j) ->
  prod_of rows cols a x y -> prod_of rows cols b x y.
Proof.
  intros rows cols a b x y E [L P]. split; [exact L|]. intros i Hi. rewrite P by exact Hi.
  assert (G : forall l s, (forall j, In j l -> j < cols) ->
    fold_left (fun s j => kadd s (kmul (a i j) (nth j x kzero))) l s =
    fold_left (fun s j => kadd s (kmul (b i j) (nth j x kzero))) l s).
  { induction l as [|j l IH]; intros s Hl; [reflexivity|]. cbn [fold_left].
    rewrite E by (auto; apply Hl; left; reflexivity). apply IH. intros; apply Hl; right; assumption. }
  apply G. intros j Hj. apply in_seq in Hj. lia.
Qed.

Lemma prod_conj : forall rows cols a x y, prod_of rows cols a (map cj x) y ->
  prod_of rows cols (fun i j => cj (a i j)) x (map cj y).
Proof.
  intros rows cols a x y [L P]. split; [rewrite map_length; exact L|]. intros i Hi.
  rewrite <- conj_zero at 1. rewrite map_nth, P by exact Hi.
  assert (G : forall l s, cj (fold_left (fun s j => kadd s (kmul (a i j) (nth j (map cj x) kzero))) l s) =
    fold_left (fun s j => kadd s (kmul (cj (a i j)) (nth j x kzero))) l (cj s)).
  { induction l as [|j l IH]; intros s; [reflexivity|]. cbn [fold_left]. rewrite IH.
    rewrite conj_add, conj_mul. do 2 f_equal.
    rewrite <- conj_zero at 1. rewrite map_nth, conj_conj. reflexivity. }
  rewrite G, conj_zero. reflexivity.
Qed.

Lemma real_elem : forall (m : rmatrix) i j, r_kind m = Real -> cj (elem m i j) = elem m i j.
Proof. intros m i j H. unfold PropsR.elem. rewrite H. apply real_conj. Qed.

Notation Af := (Af d0 mk kzero kadd kmul).
Notation Afc := (Afc d0 mk kzero kadd kmul cj).

Lemma Af_n : forall (m : rmatrix) x, stored m -> length x = r_cols m ->
  exists y, Af m x RModel.N = Some y /\ prod_of (r_rows m) (r_cols m) (elem m) x y.
Proof.
  intros m x S L. unfold RModel.Af. apply gemv_product; [exact L|].
  intros i j Hi Hj. apply entry_elem; assumption.
Qed.

Lemma Af_c : forall (m : rmatrix) x, stored m -> length x = r_rows m ->
  exists y, Af m x RModel.C = Some y /\ prod_of (r_cols m) (r_rows m) (flipped (elem m)) x y.
Proof.
  intros m x S L. unfold RModel.Af. apply gemv_product; [exact L|].
  intros i j Hi Hj. unfold flipped. apply entry_elem; assumption.
Qed.

Lemma Afc_c : forall (m : rmatrix) x, stored m -> length x = r_rows m ->
  exists y, Afc m x RModel.C = Some y /\ prod_of (r_cols m) (r_rows m) (adjoint cj (elem m)) x y.
Proof.
  intros m x S L. destruct (Af_c m (map cj x) S) as (y & E & P); [rewrite map_length; exact L|].
  unfold RModel.Af in E. unfold RModel.Afc. rewrite E. cbn [option_map].
  eexists. split; [reflexivity|]. apply prod_conj in P. exact P.
Qed.

Notation sv_prod := (sv_product d0 mk kzero kadd kmul cj).

(** *** C67_products: the solver multiplies by the matrix the user gave, and by its conjugate
    transpose.  For every class and kind of matrix and any isreal; the only case refused is a
    complex matrix declared real.  A diagonal matrix is real and square, as in the package. *)
Theorem C67_products : forall (m : rmatrix) isreal (transpose : bool) x, stored m ->
  (r_class m = Diagonal -> r_kind m = Real /\ r_rows m = r_cols m /\ forall i j, elem m i j = elem m j i) ->
  length x = (if transpose then r_rows m else r_cols m) ->
  match sv_prod (sv_run_kind isreal (SM m)) (r_rows m) (r_cols m) (sv_hand isreal (SM m)) transpose x with
  | Value y => if transpose then prod_of (r_cols m) (r_rows m) (adjoint cj (elem m)) x y
               else prod_of (r_rows m) (r_cols m) (elem m) x y
  | Raised => isreal = Some true /\ r_kind m = Cplx
  | Undefined => False
  end.
Proof.
  intros m isreal tr x S DG L.
  assert (RawOk : match sv_prod (r_kind m) (r_rows m) (r_cols m) (SRaw m) tr x with
     | Value y => if tr then prod_of (r_cols m) (r_rows m) (adjoint cj (elem m)) x y
                  else prod_of (r_rows m) (r_cols m) (elem m) x y
     | _ => False end).
  { unfold sv_product.
    assert (SK : same_kind (r_kind m) (r_kind m) = true) by (destruct (r_kind m); reflexivity).
    rewrite SK. destruct tr.
    - destruct (gemv_product kzero kadd kmul (r_cols m) (r_rows m)
        (fun i j => option_map cj (entry d0 mk (r_kind m) (r_rows m) (r_mem m) j i))
        (adjoint cj (elem m)) x L) as (y & E & P).
      { intros i j Hi Hj. rewrite entry_elem by assumption. reflexivity. }
      rewrite E. exact P.
    - destruct (gemv_product kzero kadd kmul (r_rows m) (r_cols m)
        (entry d0 mk (r_kind m) (r_rows m) (r_mem m)) (elem m) x L) as (y & E & P).
      { intros i j Hi Hj. apply entry_elem; assumption. }
      rewrite E. exact P. }
  set (wr := match r_kind m with Real => SAf m | Cplx => @SAfc D K m end).
  assert (Wr : forall k,
     match sv_prod k (r_rows m) (r_cols m) wr tr x with
     | Value y => if tr then prod_of (r_cols m) (r_rows m) (adjoint cj (elem m)) x y
                  else prod_of (r_rows m) (r_cols m) (elem m) x y
     | Raised => k = Real /\ r_kind m = Cplx
     | Undefined => False end).
  { intros k. unfold wr. destruct (r_kind m) eqn:Kd; unfold sv_product; destruct tr.
    - destruct (Af_c m x S L) as (y & E & P). rewrite E, Kd.
      assert (Q : prod_of (r_cols m) (r_rows m) (adjoint cj (elem m)) x y).
      { apply prod_ext with (a := flipped (elem m)); [|exact P]. intros i j Hi Hj.
        unfold flipped, adjoint. symmetry. apply real_elem. exact Kd. }
      unfold copy_result. cbn [f_kind f_values]. rewrite (proj1 Q), Nat.eqb_refl. destruct k; exact Q.
    - destruct (Af_n m x S L) as (y & E & P). rewrite E, Kd.
      unfold copy_result. cbn [f_kind f_values]. rewrite (proj1 P), Nat.eqb_refl. destruct k; exact P.
    - destruct (Afc_c m x S L) as (y & E & P). rewrite E, Kd.
      unfold copy_result. cbn [f_kind f_values]. rewrite (proj1 P), Nat.eqb_refl.
      destruct k; [split; reflexivity|exact P].
    - destruct (Af_n m x S L) as (y & E & P). unfold RModel.Af in E. unfold RModel.Afc. rewrite E, Kd.
      unfold copy_result. cbn [f_kind f_values]. rewrite (proj1 P), Nat.eqb_refl.
      destruct k; [split; reflexivity|exact P]. }
  assert (Dg : r_class m = Diagonal -> forall k,
     match sv_prod k (r_rows m) (r_cols m) (SDiag m) tr x with
     | Value y => if tr then prod_of (r_cols m) (r_rows m) (adjoint cj (elem m)) x y
                  else prod_of (r_rows m) (r_cols m) (elem m) x y
     | _ => False end).
  { intros CL k. destruct (DG CL) as (Kd & Sq & Sy). unfold sv_product.
    assert (L' : length x = r_cols m) by (destruct tr; congruence).
    destruct (Af_n m x S L') as (y & E & P). rewrite E, Kd.
    unfold copy_result. cbn [f_kind f_values]. rewrite (proj1 P).
    assert (EQ : (r_rows m =? (if tr then r_cols m else r_rows m)) = true)
      by (destruct tr; [rewrite Sq|]; apply Nat.eqb_refl).
    rewrite EQ. destruct tr; [|destruct k; exact P].
    assert (Q : prod_of (r_cols m) (r_rows m) (adjoint cj (elem m)) x y).
    { rewrite Sq in *. apply prod_ext with (a := elem m); [|exact P]. intros i j Hi Hj.
      unfold adjoint. rewrite real_elem by exact Kd. apply Sy. }
    destruct k; exact Q. }
  assert (WrK : sv_run_kind isreal (SM m) = Real -> r_kind m = Cplx -> isreal = Some true).
  { unfold sv_run_kind. destruct isreal as [[]|]; cbn [kind_of]; try discriminate; [reflexivity|congruence]. }
  specialize (Wr (sv_run_kind isreal (SM m))).
  assert (Wr' : match sv_prod (sv_run_kind isreal (SM m)) (r_rows m) (r_cols m) wr tr x with
     | Value y => if tr then prod_of (r_cols m) (r_rows m) (adjoint cj (elem m)) x y
                  else prod_of (r_rows m) (r_cols m) (elem m) x y
     | Raised => isreal = Some true /\ r_kind m = Cplx
     | Undefined => False end).
  { destruct (sv_prod (sv_run_kind isreal (SM m)) (r_rows m) (r_cols m) wr tr x); try exact Wr.
    destruct Wr as [W1 W2]. split; [apply WrK; assumption|exact W2]. }
  clear Wr.
  assert (Raw' : forall b : bool, b = match isreal with None => true | Some b => same_kind (kind_of b) (r_kind m) end ->
     match sv_prod (sv_run_kind isreal (SM m)) (r_rows m) (r_cols m) (if b then SRaw m else wr) tr x with
     | Value y => if tr then prod_of (r_cols m) (r_rows m) (adjoint cj (elem m)) x y
                  else prod_of (r_rows m) (r_cols m) (elem m) x y
     | Raised => isreal = Some true /\ r_kind m = Cplx
     | Undefined => False end).
  { intros [] E; [|exact Wr'].
    assert (EK : sv_run_kind isreal (SM m) = r_kind m).
    { unfold sv_run_kind. destruct isreal as [[]|]; [| |reflexivity]; destruct (r_kind m); (reflexivity || discriminate). }
    rewrite EK. destruct (sv_prod (r_kind m) (r_rows m) (r_cols m) (SRaw m) tr x); (exact RawOk || contradiction). }
  specialize (Raw' _ eq_refl). unfold sv_hand. fold wr.
  destruct (r_class m) eqn:CL; try exact Raw'; try exact Wr'.
  specialize (Dg eq_refl (sv_run_kind isreal (SM m))).
  destruct (sv_prod (sv_run_kind isreal (SM m)) (r_rows m) (r_cols m) (SDiag m) tr x); (exact Dg || contradiction).
Qed.

(** *** C67_function: a function is called with "n" for the product and "c" for the product with
    the conjugate transpose, and its result is used as it is or refused. *)
Theorem C67_function : forall (f : list K -> flag -> fresult) isreal k m n (transpose : bool) x,
  let r := f x (if transpose then RModel.C else RModel.N) in
  match sv_prod k m n (@sv_hand D K isreal (SFun f)) transpose x with
  | Value y => y = f_values r /\ length y = (if transpose then n else m)
  | Raised => length (f_values r) <> (if transpose then n else m) \/ (k = Real /\ f_kind r = Cplx)
  | Undefined => False
  end.
Proof.
  intros f isreal k m n tr x r. cbn [sv_hand sv_product]. fold r. unfold copy_result.
  destruct k, (f_kind r) eqn:E;
    try (right; split; reflexivity);
    (destruct (length (f_values r) =? (if tr then n else m)) eqn:L;
      [apply Nat.eqb_eq in L; split; [reflexivity|exact L]
      |apply Nat.eqb_neq in L; left; exact L]).
Qed.

(** ** Guesses and constraints *)
Notation uv := (check_uv d0 mk kzero kadd kmul).

Lemma collect_inv : forall X Y (f : X -> option Y) l r, collect (map f l) = Some r ->
  Forall2 (fun x y => f x = Some y) l r.
Proof.
  induction l as [|a l IH]; intros r H; cbn [map collect] in H.
  - injection H as H. subst. constructor.
  - destruct (f a) as [y|] eqn:E; [|discriminate]. cbn [bind] in H.
    destruct (collect (map f l)) as [ys|] eqn:G; [|discriminate]. cbn [bind] in H.
    injection H as H. subst. constructor; [exact E|]. apply IH. reflexivity.
Qed.

Lemma rows_forall : forall r (x : list (list K)), all_rows r x = true -> Forall (fun c => length c = r) x.
Proof.
  intros r x H. unfold all_rows in H. apply Forall_forall. intros c Hc.
  rewrite forallb_forall in H. apply Nat.eqb_eq. apply H. exact Hc.
Qed.

(** *** C67_right_only: when only right vectors are given, the left ones are their images. *)
Theorem C67_right_only : forall (A : rmatrix) v u' v', stored A ->
  uv (SM A) (r_rows A) (r_cols A) None (Some v) = Some (u', v') ->
  v' = v /\ Forall2 (fun x y => prod_of (r_rows A) (r_cols A) (elem A) x y) v u'.
Proof.
  intros A v u' v' S H. unfold check_uv in H.
  destruct (all_rows (r_cols A) v) eqn:R; [|discriminate]. apply rows_forall in R.
  destruct (apply_block d0 mk kzero kadd kmul (SM A) v RModel.N) as [u|] eqn:E; [|discriminate].
  cbn [bind] in H. injection H as H1 H2. subst. split; [reflexivity|].
  unfold apply_block in E. apply collect_inv in E.
  induction E as [|x y l1 l2 E _ IH]; [constructor|].
  inversion R as [|? ? R1 R2]; subst. constructor; [|apply IH; exact R2].
  destruct (Af_n A x S R1) as (z & Ez & P).
  assert (G : Af A x RModel.N = Some y) by (destruct (r_class A); exact E).
  rewrite G in Ez. injection Ez as Ez. subst. exact P.
Qed.

(** *** C67_function_one_sided: the same when A is a function: it is called with each vector given,
    asked for the product or for the one with the conjugate transpose. *)
Theorem C67_function_one_sided : forall (f : list K -> flag -> fresult (K := K)) m n x u' v',
  (uv (SFun f) m n None (Some x) = Some (u', v') ->
     v' = x /\ u' = map (fun c => f_values (f c RModel.N)) x /\ Forall (fun c => length c = n) v') /\
  (uv (SFun f) m n (Some x) None = Some (u', v') ->
     u' = x /\ v' = map (fun c => f_values (f c RModel.C)) x /\
     Forall (fun c => length c = m) u' /\ Forall (fun c => length c = n) v').
Proof.
  intros f m n x u' v'. unfold check_uv, apply_block.
  assert (CS : forall (g : list K -> list K) l, collect (map (fun c => Some (g c)) l) = Some (map g l)).
  { intros g l. induction l as [|c l IH]; [reflexivity|]. cbn [map collect bind]. rewrite IH. reflexivity. }
  split; intros H.
  - destruct (all_rows n x) eqn:R; [|discriminate]. rewrite (CS (fun c => f_values (f c RModel.N))) in H.
    cbn [bind] in H. injection H as H1 H2. subst. split; [reflexivity|]. split; [reflexivity|]. apply rows_forall. exact R.
  - destruct (all_rows m x) eqn:R; [|discriminate]. rewrite (CS (fun c => f_values (f c RModel.C))) in H.
    cbn [bind] in H. destruct (all_rows n (map (fun c => f_values (f c RModel.C)) x)) eqn:R2; [|discriminate].
    injection H as H1 H2. subst. split; [reflexivity|]. split; [reflexivity|].
    split; apply rows_forall; assumption.
Qed.

(** *** C67_left_only_partial: when only left vectors are given and the matrix is real, the right
    ones are their images under the conjugate transpose. *)
Theorem C67_left_only_partial : forall (A : rmatrix) u u' v', stored A -> r_kind A = Real ->
  (r_class A = Diagonal -> r_rows A = r_cols A /\ forall i j, elem A i j = elem A j i) ->
  uv (SM A) (r_rows A) (r_cols A) (Some u) None = Some (u', v') ->
  u' = u /\ Forall2 (fun x y => prod_of (r_cols A) (r_rows A) (adjoint cj (elem A)) x y) u v'.
Proof.
  intros A u u' v' S Kd DG H. unfold check_uv in H.
  destruct (all_rows (r_rows A) u) eqn:R; [|discriminate]. apply rows_forall in R.
  destruct (apply_block d0 mk kzero kadd kmul (SM A) u RModel.C) as [v|] eqn:E; [|discriminate].
  cbn [bind] in H. destruct (all_rows (r_cols A) v); [|discriminate].
  injection H as H1 H2. subst. split; [reflexivity|].
  unfold apply_block in E. apply collect_inv in E.
  induction E as [|x y l1 l2 E _ IH]; [constructor|].
  inversion R as [|? ? R1 R2]; subst. constructor; [|apply IH; exact R2].
  destruct (r_class A) eqn:CL.
  4: { destruct (DG eq_refl) as [Sq Sy].
       destruct (Af_n A x S) as (z & Ez & P); [congruence|].
       rewrite E in Ez. injection Ez as Ez. subst. rewrite Sq in *.
       apply prod_ext with (a := elem A); [|exact P]. intros i j _ _.
       unfold adjoint. rewrite real_elem by exact Kd. apply Sy. }
  all: destruct (Af_c A x S R1) as (z & Ez & P); rewrite E in Ez; injection Ez as Ez; subst;
       apply prod_ext with (a := flipped (elem A)); [|exact P]; intros i j _ _;
       unfold flipped, adjoint; symmetry; apply real_elem; exact Kd.
Qed.

Lemma write_next : forall (pre rest l : list K), length l <= length rest ->
  write_at (pre ++ rest) (length pre) l = Some (pre ++ l ++ skipn (length l) rest).
Proof.
  intros pre rest l H. unfold write_at. rewrite app_length.
  assert (E : length pre + length l <=? length pre + length rest = true) by (apply Nat.leb_le; lia).
  rewrite E. f_equal. rewrite firstn_app, Nat.sub_diag, firstn_all. cbn [firstn].
  rewrite app_nil_r. f_equal. f_equal.
  rewrite skipn_app. rewrite skipn_all2 by lia. cbn [app]. f_equal. lia.
Qed.

Lemma concat_rows : forall r (x : list (list K)), Forall (fun c => length c = r) x ->
  length (concat x) = r * length x.
Proof.
  intros r x H. induction H as [|c x Hc _ IH]; [cbn; lia|].
  cbn [concat length]. rewrite app_length, IH, Hc. lia.
Qed.

(** *** C67_arrays: the array given to the solver holds the left constraints, the left guesses, the
    right constraints and the right guesses, one after another, and has room for every triplet. *)
Theorem C67_arrays : forall (a : @svds_args D K V) fresh ou ov iu iv,
  uv (s_A a) (s_m a) (s_n a) (s_orthou a) (s_orthov a) = Some (ou, ov) ->
  uv (s_A a) (s_m a) (s_n a) (s_u0 a) (s_v0 a) = Some (iu, iv) ->
  Forall (fun c => length c = s_m a) ou -> Forall (fun c => length c = s_n a) ov ->
  Forall (fun c => length c = s_m a) iu -> Forall (fun c => length c = s_n a) iv ->
  length ou = length ov -> length iu = length iv ->
  let size := (s_m a + s_n a) * (length ou + max (length iu) (Z.to_nat (s_NSvals a))) in
  size <= length fresh ->
  exists mem rest, sv_arrays d0 mk kzero kadd kmul a fresh = Some (length ou, length iu, mem) /\
    mem = concat ou ++ concat iu ++ concat ov ++ concat iv ++ rest /\ length mem = size.
Proof.
  intros a fresh ou ov iu iv HO HI R1 R2 R3 R4 L1 L2 size F.
  unfold sv_arrays. rewrite HO, HI. cbn [bind].
  assert (AR : forall r (x : list (list K)), Forall (fun c => length c = r) x -> all_rows r x = true).
  { intros r x H. unfold all_rows. apply forallb_forall. intros c Hc.
    rewrite Forall_forall in H. apply Nat.eqb_eq. apply H. exact Hc. }
  rewrite (AR _ _ R1), (AR _ _ R2), (AR _ _ R3), (AR _ _ R4). cbn [andb negb].
  rewrite <- L1, <- L2, !Nat.eqb_refl. cbn [andb negb].
  fold size. set (mem := firstn size fresh).
  assert (LM : length mem = size) by (unfold mem; rewrite firstn_length; lia).
  pose proof (concat_rows _ _ R1) as C1. pose proof (concat_rows _ _ R2) as C2.
  pose proof (concat_rows _ _ R3) as C3. pose proof (concat_rows _ _ R4) as C4.
  assert (SZ : length (concat ou) + length (concat iu) + length (concat ov) + length (concat iv) <= size)
    by (rewrite C1, C2, C3, C4, <- L1, <- L2; unfold size; nia).
  clearbody mem size.
  pose proof (write_next [] mem (concat ou)) as W1. cbn [app length] in W1.
  rewrite W1 by lia. cbn [bind].
  rewrite <- C1. rewrite write_next by (rewrite skipn_length; lia). cbn [bind].
  set (r2 := skipn (length (concat iu)) (skipn (length (concat ou)) mem)).
  assert (LR2 : length r2 = size - length (concat ou) - length (concat iu))
    by (unfold r2; rewrite !skipn_length; lia).
  assert (P2 : s_m a * (length ou + length iu) = length (concat ou ++ concat iu))
    by (rewrite app_length, C1, C3; lia).
  rewrite P2. rewrite (app_assoc (concat ou)).
  rewrite write_next by lia. cbn [bind].
  assert (P3 : length (concat ou ++ concat iu) + s_n a * length ou
             = length ((concat ou ++ concat iu) ++ concat ov))
    by (rewrite (app_length (_ ++ _)), C2, L1; lia).
  rewrite P3. rewrite (app_assoc (concat ou ++ concat iu)).
  set (r3 := skipn (length (concat ov)) r2).
  assert (LR3 : length r3 = length r2 - length (concat ov)) by (unfold r3; rewrite skipn_length; lia).
  rewrite write_next by lia. cbn [bind].
  eexists. exists (skipn (length (concat iv)) r3). split; [reflexivity|].
  split; [rewrite <- !app_assoc; reflexivity|].
  rewrite !app_length, skipn_length. lia.
Qed.

(** The documented meaning of [which]. *)
Definition svds_meaning (w : @swhich V) : option (Z * list V) :=
  match w with
  | SL => Some (0, []) | SS => Some (1, []) | SNumeric l => Some (2, l) | SBad => None
  end%Z.

Notation rsvds := (RModel.svds d0 mk kzero kadd kmul).

Lemma columns_concat : forall r (x : list (list K)) rest, Forall (fun c => length c = r) x ->
  columns_of r (length x) (concat x ++ rest) = x.
Proof.
  intros r x rest H. induction H as [|c x Hc _ IH]; [reflexivity|].
  cbn [length columns_of concat]. rewrite <- app_assoc.
  f_equal.
  - rewrite firstn_app, Hc, Nat.sub_diag. rewrite <- Hc at 1. rewrite firstn_all. apply app_nil_r.
  - rewrite skipn_app, Hc, Nat.sub_diag. rewrite skipn_all2 by lia. exact IH.
Qed.

(** *** C67_returned: a result is returned only when the solver succeeded, for the target documented;
    it has all the values and norms, and the vectors found, left and right, without constraints. *)
Theorem C67_returned : forall run (a : @svds_args D K V) fresh d u v rnorms,
  rsvds run a fresh = SRReturned d u v rnorms ->
  exists noc init t mem, sv_arrays d0 mk kzero kadd kmul a fresh = Some (noc, init, mem) /\
    svds_meaning (s_which a) = Some t /\
    (0 <= s_NSvals a <= Z.of_nat (min (s_m a) (s_n a)))%Z /\
    let l := run noc init t mem in
    w_ret l = 0%Z /\ d = w_svals l /\ rnorms = w_rnorms l /\
    (forall uc u' vc v' rest, length uc = noc -> length vc = noc ->
       length u' = w_initSize l -> length v' = w_initSize l ->
       Forall (fun c => length c = s_m a) uc -> Forall (fun c => length c = s_m a) u' ->
       Forall (fun c => length c = s_n a) vc -> Forall (fun c => length c = s_n a) v' ->
       w_svecs l = concat uc ++ concat u' ++ concat vc ++ concat v' ++ rest -> u = u' /\ v = v').
Proof.
  intros run a fresh d u v rnorms H. unfold RModel.svds in H.
  destruct ((s_NSvals a >? Z.of_nat (min (s_m a) (s_n a)))%Z || (s_NSvals a <? 0)%Z) eqn:NS; [discriminate|].
  apply orb_false_iff in NS. destruct NS as [N1 N2]. apply Z.ltb_ge in N2.
  rewrite Z.gtb_ltb in N1. apply Z.ltb_ge in N1.
  destruct (sv_target (s_which a)) as [t|] eqn:T; [|discriminate].
  destruct (sv_arrays d0 mk kzero kadd kmul a fresh) as [[[noc init] mem]|]; [|discriminate].
  exists noc, init, t, mem. split; [reflexivity|].
  split; [unfold svds_meaning; unfold sv_target in T; destruct (s_which a); exact T|].
  split; [split; assumption|]. cbv zeta.
  unfold sv_finish in H. destruct (w_ret (run noc init t mem) =? 0)%Z eqn:R; [|discriminate].
  apply Z.eqb_eq in R. injection H as H1 H2 H3 H4. subst d u v rnorms.
  do 3 (split; [auto|]).
  intros uc u' vc v' rest L1 L2 L3 L4 F1 F2 F3 F4 E.
  pose proof (concat_rows _ _ F1) as C1. pose proof (concat_rows _ _ F2) as C2.
  pose proof (concat_rows _ _ F3) as C3. rewrite E. split.
  - rewrite skipn_app. rewrite skipn_all2 by lia. cbn [app].
    replace (s_m a * noc - length (concat uc)) with 0 by lia. cbn [skipn].
    rewrite <- L3. apply columns_concat. exact F2.
  - assert (P : s_m a * (noc + w_initSize (run noc init t mem)) + s_n a * noc
              = length (concat uc ++ concat u' ++ concat vc)) by (rewrite !app_length, C1, C2, C3; nia).
    rewrite P. replace (concat uc ++ concat u' ++ concat vc ++ concat v' ++ rest)
      with ((concat uc ++ concat u' ++ concat vc) ++ concat v' ++ rest) by (rewrite <- !app_assoc; reflexivity).
    rewrite skipn_app, Nat.sub_diag, skipn_all. cbn [app skipn].
    rewrite <- L4. apply columns_concat. exact F4.
Qed.

(** *** C67_raised: every failure of the solver is raised with its code. *)
Theorem C67_raised : forall run (a : @svds_args D K V) fresh noc init mem t,
  sv_arrays d0 mk kzero kadd kmul a fresh = Some (noc, init, mem) ->
  svds_meaning (s_which a) = Some t ->
  (0 <= s_NSvals a <= Z.of_nat (min (s_m a) (s_n a)))%Z ->
  w_ret (run noc init t mem) <> 0%Z ->
  rsvds run a fresh = SRError (w_ret (run noc init t mem)).
Proof.
  intros run a fresh noc init mem t E T NS R. unfold RModel.svds.
  assert (B : ((s_NSvals a >? Z.of_nat (min (s_m a) (s_n a)))%Z || (s_NSvals a <? 0)%Z) = false).
  { apply orb_false_iff. rewrite Z.gtb_ltb. split; apply Z.ltb_ge; lia. }
  rewrite B.
  assert (T' : sv_target (s_which a) = Some t)
    by (unfold svds_meaning in T; unfold sv_target; destruct (s_which a); exact T).
  rewrite T', E. unfold sv_finish. apply Z.eqb_neq in R. rewrite R. reflexivity.
Qed.

(** *** C67_prec: for each operator of the solver the preconditioner given under its documented
    name is used, a function as it is and a matrix by solving with it; without one, the vector is
    left as it is.  1 is A*A, 2 is AA*, 3 the augmented matrix; anything else is an error. *)
Theorem C67_prec : forall (solve : rmatrix -> list K -> fresult) (aha aah aug : option (@oper D K)) x,
  let prec := fun m => match m with AHA => aha | AAH => aah | Aug => aug end in
  let used (p : option (@oper D K)) := match p with
    | Some (OFun f) => f x
    | Some (OMat m) => solve m x
    | None => {| f_kind := Real; f_values := x |}
    end in
  let applied op := option_map (fun m => sv_prec solve prec m x) (pmode_of op) in
  applied 1%Z = Some (used aha) /\ applied 2%Z = Some (used aah) /\ applied 3%Z = Some (used aug) /\
  forall op, op <> 1%Z -> op <> 2%Z -> op <> 3%Z -> applied op = None.
Proof.
  intros solve aha aah aug x prec used applied. unfold applied, used, sv_prec, prec.
  split; [reflexivity|]. split; [reflexivity|]. split; [reflexivity|].
  intros op H1 H2 H3. unfold pmode_of, primme_svds_op_AtA, primme_svds_op_AAt, primme_svds_op_augmented.
  apply Z.eqb_neq in H1, H2, H3. rewrite H1, H2, H3. reflexivity.
Qed.
End R.

(** ** Gaussian integers *)
Lemma gauss_conj : g_cj (0, 0)%Z = (0, 0)%Z /\ (forall a b, g_cj (g_add a b) = g_add (g_cj a) (g_cj b)) /\
  (forall a b, g_cj (g_mul a b) = g_mul (g_cj a) (g_cj b)) /\ (forall a, g_cj (g_cj a) = a).
Proof.
  split; [reflexivity|]. split; [|split].
  - intros [a b] [c d]. unfold g_cj, g_add. cbn. f_equal. lia.
  - intros [a b] [c d]. unfold g_cj, g_mul. cbn. f_equal; lia.
  - intros [a b]. unfold g_cj. cbn. f_equal. lia.
Qed.

(** the 2 by 1 matrix (1, i) *)
Definition column2 : @rmatrix Z :=
  {| r_class := Plain; r_kind := Cplx; r_rows := 2; r_cols := 1; r_mem := [1; 0; 0; 1]%Z |}.

(** *** C67_left_only_refuted: with a complex matrix the right vectors computed from left ones are
    their images under the transpose, without conjugation. *)
Theorem C67_left_only_refuted : exists (A : @rmatrix Z) (u : list gauss) v,
  stored A /\ length u = r_rows A /\
  check_uv 0%Z g_mk (0, 0)%Z g_add g_mul (SMat A) (r_rows A) (r_cols A) (Some [u]) None = Some ([u], [v]) /\
  ~ is_product (0, 0)%Z g_add g_mul (r_cols A) (r_rows A) (adjoint g_cj (elem 0%Z g_mk A)) u v.
Proof.
  exists column2, [(0, 0); (1, 0)]%Z, [(0, 1)]%Z.
  split; [reflexivity|]. split; [reflexivity|]. split; [reflexivity|].
  intros [_ P]. specialize (P 0 ltac:(cbn; lia)). discriminate P.
Qed.

Definition case_args : @svds_args Z gauss Z :=
  {| s_A := SMat column2; s_m := 2; s_n := 1; s_NSvals := 1; s_which := SL; s_isreal := None;
     s_u0 := None; s_v0 := Some [[(1, 0)]]; s_orthou := None; s_orthov := None |}%Z.

(** A case that meets the hypotheses: only a right guess is given. *)
Example C67_case : exists mem,
  sv_arrays 0%Z g_mk (0, 0)%Z g_add g_mul case_args (repeat (9, 9)%Z 3) = Some (0, 1, mem) /\
  mem = [(1, 0); (0, 1); (1, 0)]%Z /\
  sv_product 0%Z g_mk (0, 0)%Z g_add g_mul g_cj Cplx 2 1 (sv_hand None (SMat column2)) true
    [(0, 0); (1, 0)]%Z = Value [(0, -1)]%Z /\
  RModel.svds 0%Z g_mk (0, 0)%Z g_add g_mul
    (fun noc init t mem => {| w_ret := 0; w_initSize := 1; w_svals := [7%Z]; w_svecs := mem; w_rnorms := [0%Z] |})
    case_args (repeat (9, 9)%Z 3) = SRReturned [7%Z] [[(1, 0); (0, 1)]%Z] [[(1, 0)%Z]] [0%Z].
Proof. eexists. repeat split; reflexivity. Qed.
