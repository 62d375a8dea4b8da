(** C56: vectors, residuals, norms and projected matrices computed by pieces of
    rows and in place are those of the vectors before the call. *)
From Coq Require Import List Arith Bool Lia Field Setoid.
From Verif Require Import Base ProjModel SpecProj MatAlg VwxrModel SpecVwxr.
Import ListNotations.

Section Span.
Variable imax : nat.
Lemma widen_mono l : forall acc, Datatypes.fst (fold_left widen l acc) <= Datatypes.fst acc /\
  Datatypes.snd acc <= Datatypes.snd (fold_left widen l acc).
Proof.
  induction l as [|[[c b] e] l IH]; intros acc; cbn [fold_left]; [lia|].
  destruct (IH (widen acc (c, b, e))) as [H1 H2].
  unfold widen in *; destruct c; cbn [Datatypes.fst Datatypes.snd] in *; lia.
Qed.
Lemma widen_in l b e : In (true, b, e) l -> forall acc,
  Datatypes.fst (fold_left widen l acc) <= b /\ e <= Datatypes.snd (fold_left widen l acc).
Proof.
  induction l as [|q l IH]; [intros []|]. intros [->|H] acc; cbn [fold_left].
  - destruct (widen_mono l (widen acc (true, b, e))) as [H1 H2].
    unfold widen in *; cbn [Datatypes.fst Datatypes.snd] in *; lia.
  - now apply IH.
Qed.
Lemma span_in l b e : In (true, b, e) l -> Datatypes.fst (span imax l) <= b /\ e <= Datatypes.snd (span imax l).
Proof.
  intros H. destruct (widen_in l b e H (imax, 0)) as [H1 H2]. unfold span.
  destruct (fold_left widen l (imax, 0)) as [lo hi]. cbn [Datatypes.fst Datatypes.snd] in *. lia.
Qed.
Lemma span_inside l c b e : In (c, b, e) l -> (c = false -> e <= b) -> inside (span imax l) b e = true.
Proof.
  intros H Hc. unfold inside. destruct c.
  - destruct (span_in l b e H) as [H1 H2]. apply orb_true_iff. right.
    apply andb_true_iff. rewrite !Nat.leb_le. auto.
  - rewrite (proj2 (Nat.leb_le e b)) by auto. reflexivity.
Qed.
End Span.

Section Writes.
Context {K : Type}.
Definition tri := ((nat * nat) * (@buffer K) * out)%type.
Definition wrt (i m : nat) (mem : @memory K) (t : tri) : @memory K :=
  let '(s, buf, x) := t in wr s buf i m mem x.
Definition at_of (t : tri) (c r : nat) : K :=
  let '(s, buf, x) := t in
  buf (o_b x - Datatypes.fst s + (c - match o_ptr x with Some (_, c') => c' | None => 0 end)) r.
Definition xof (t : tri) : out := let '(_, _, x) := t in x.

Lemma wrt_pt i m mem t a c r : wrt i m mem t a c r =
  if covers (xof t) a c && (i <=? r) && (r <? i + m) then at_of t c (r - i) else mem a c r.
Proof. destruct t as [[s buf] x]. reflexivity. Qed.

Lemma fold_out i m l : forall mem a c r,
  (r < i \/ i + m <= r \/ forall t, In t l -> covers (xof t) a c = false) ->
  fold_left (wrt i m) l mem a c r = mem a c r.
Proof.
  induction l as [|t l IH]; intros mem a c r H; cbn [fold_left]; auto.
  rewrite IH.
  - rewrite wrt_pt. destruct H as [H|[H|H]].
    + rewrite (proj2 (Nat.leb_gt i r)) by lia. now rewrite andb_false_r.
    + rewrite (proj2 (Nat.ltb_ge r (i + m))) by lia. now rewrite andb_false_r.
    + rewrite (H t) by (now left). reflexivity.
  - destruct H as [H|[H|H]]; auto. right. right. intros t' Ht'. apply H. now right.
Qed.
Lemma fold_in i m l : forall mem a c r t,
  ForallOrdPairs disjoint (map xof l) -> In t l -> covers (xof t) a c = true -> i <= r < i + m ->
  fold_left (wrt i m) l mem a c r = at_of t c (r - i).
Proof.
  induction l as [|t0 l IH]; intros mem a c r t Hd Hi Hc Hr; [contradiction|].
  cbn [map] in Hd. inversion Hd as [|x xs Hx Hd' E]; subst. cbn [fold_left]. destruct Hi as [->|Hi].
  - rewrite fold_out.
    + rewrite wrt_pt, Hc, (proj2 (Nat.leb_le i r)), (proj2 (Nat.ltb_lt r (i + m))) by lia. reflexivity.
    + right. right. intros t' Ht'. rewrite Forall_forall in Hx. apply (Hx (xof t')); auto.
      now apply in_map.
  - apply IH; auto.
Qed.
End Writes.

Section Piece.
Context {K : Type} (o : scal K) (L : laws o).
Variable cplx : bool. Variable imax : nat.
Add Field Kf : (l_field o L).
Variable J : @job K.
Variable mem0 : @memory K.
Hypothesis Lay : layout J.
Notation fst := Datatypes.fst. Notation snd := Datatypes.snd.

Definition Vh := rotated o mem0 (j_V J) (j_nV J) (j_h J).
Definition Wh := rotated o mem0 (ptr_or (j_W J) (j_V J)) (j_nV J) (j_h J).
Definition Bh := rotated o mem0 (ptr_or (j_BV J) (j_V J)) (j_nV J) (j_h J).
Definition Rh := residual o mem0 J.
Definition values : list (out * (nat -> nat -> K)) :=
  [(j_x0 J, Vh); (j_x1 J, Vh); (j_x2 J, Vh); (j_wo J, Wh); (j_bx0 J, Bh); (j_bx1 J, Bh); (j_bx2 J, Bh); (j_r J, Rh)].
Definition start_of (x : out) : nat := match o_ptr x with Some (_, c') => c' | None => 0 end.
Definition fin (a c r : nat) : K :=
  match find (fun q => covers (fst q) a c) values with
  | Some (x, v) => v (o_b x + (c - start_of x)) r
  | None => mem0 a c r end.

Lemma find_disjoint (l : list (out * (nat -> nat -> K))) x v a c :
  ForallOrdPairs disjoint (map fst l) -> In (x, v) l -> covers x a c = true ->
  find (fun q => covers (fst q) a c) l = Some (x, v).
Proof.
  induction l as [|[y w] l IH]; intros Hd Hi Hc; [contradiction|].
  cbn [map] in Hd. inversion Hd as [|z zs Hz Hd' E]; subst. cbn [find fst]. destruct Hi as [E|Hi].
  - injection E as -> ->. now rewrite Hc.
  - destruct (covers y a c) eqn:Ey; [|now apply IH].
    rewrite Forall_forall in Hz. rewrite (Hz x) in Hc; [discriminate| |exact Ey].
    change x with (fst (x, v)). now apply in_map.
Qed.
Lemma fin_in x v a c r : In (x, v) values -> covers x a c = true -> fin a c r = v (o_b x + (c - start_of x)) r.
Proof. intros H Hc. unfold fin. rewrite (find_disjoint values x v a c); auto. apply (lay_disjoint J Lay). Qed.
Lemma fin_out a c r : (forall x, In x (outputs J) -> covers x a c = false) -> fin a c r = mem0 a c r.
Proof.
  intros H. unfold fin. destruct (find _ _) as [[x v]|] eqn:E; auto.
  apply find_some in E. destruct E as [Hi Hc]. cbn [fst] in Hc.
  rewrite (H x) in Hc; [discriminate|]. change (outputs J) with (map fst values).
  change x with (fst (x, v)). now apply in_map.
Qed.

Definition okw (m : nat) (s : nat * nat) : Prop := cplx && (m =? 1) && (snd s - fst s =? 1) = false.

Lemma product_ok mem A i m s j r : okw m s ->
  (forall l, l < j_nV J -> mem (fst A) (snd A + l) (i + r) = mem0 (fst A) (snd A + l) (i + r)) ->
  product o cplx mem A J i m (fst s) (snd s) j r = rotated o mem0 A (j_nV J) (j_h J) (fst s + j) (i + r).
Proof.
  intros Hw H. unfold product, rotated. apply sum_ext. intros l Hl. cbv zeta. rewrite Hw, H by auto. reflexivity.
Qed.

(** State after the rows below i. *)
Definition upto (i : nat) (x y : nat -> K) : K := sum o i (fun r => kmul o (kconj o (x r)) (y r)).
Definition inv (i : nat) (s : @state K) : Prop :=
  (forall a c r, s_mem s a c r = if r <? i then fin a c r else mem0 a c r) /\
  (forall j, given (j_r J) = true -> j_Rnorms J = true -> o_b (j_r J) + j < o_e (j_r J) ->
     s_R s j = upto i (Rh (o_b (j_r J) + j)) (Rh (o_b (j_r J) + j))) /\
  (forall j, n_given (j_rn J) = true -> n_b (j_rn J) + j < n_e (j_rn J) ->
     s_r s j = upto i (Rh (n_b (j_rn J) + j)) (Rh (n_b (j_rn J) + j))) /\
  (forall j, n_given (j_xn J) = true -> n_b (j_xn J) + j < n_e (j_xn J) ->
     s_x s j = upto i (Vh (n_b (j_xn J) + j)) (Vh (n_b (j_xn J) + j))) /\
  (forall n a b, j_G J = Some n -> a < n -> b < n -> s_G s a b = upto i (Vh a) (Bh b)) /\
  (forall n a b, j_H J = Some n -> a < n -> b < n -> s_H s a b = upto i (Vh a) (Wh b)).

Lemma upto_add i m x y : upto (i + m) x y = kadd o (upto i x y) (upto m (fun r => x (i + r)) (fun r => y (i + r))).
Proof. unfold upto. now rewrite (sum_split o L). Qed.
Lemma upto_ext i x x' y y' : (forall r, r < i -> x r = x' r) -> (forall r, r < i -> y r = y' r) -> upto i x y = upto i x' y'.
Proof. intros H1 H2. apply sum_ext. intros r Hr. now rewrite H1, H2. Qed.

Lemma of_out_inside x l : In (of_out x) l -> given x = true -> inside (span imax l) (o_b x) (o_e x) = true.
Proof.
  intros H Hg. apply (span_inside imax l (asked x)); auto. unfold asked. rewrite Hg. cbn [andb].
  intros E. now apply Nat.ltb_ge in E.
Qed.
Lemma of_norms_inside x l : In (of_norms x) l -> n_given x = true -> inside (span imax l) (n_b x) (n_e x) = true.
Proof.
  intros H Hg. apply (span_inside imax l (nasked x)); auto. unfold nasked. rewrite Hg. cbn [andb].
  intros E. now apply Nat.ltb_ge in E.
Qed.
Lemma inside_lt s b e j : inside s b e = true -> b + j < e -> fst s <= b /\ e <= snd s.
Proof.
  unfold inside. intros H Hj. apply orb_true_iff in H. rewrite andb_true_iff, !Nat.leb_le in H. lia.
Qed.
Lemma of_size_span n l : In (of_size (Some n)) l -> n <= snd (span imax l) - fst (span imax l).
Proof.
  intros H. unfold of_size in H. cbn [size] in H. destruct n as [|n]; [lia|].
  cbn [Nat.ltb Nat.leb] in H. destruct (span_in imax l 0 (S n) H) as [H1 H2]. lia.
Qed.
Lemma of_size_zero n a l : In (of_size (Some n)) l -> a < n -> fst (span imax l) = 0.
Proof.
  intros H Ha. unfold of_size in H. cbn [size] in H. destruct n as [|n]; [lia|].
  cbn [Nat.ltb Nat.leb] in H. destruct (span_in imax l 0 (S n) H) as [H1 H2]. lia.
Qed.
Lemma span_none l : (forall c b e, In (c, b, e) l -> c = false) -> span imax l = (imax, imax).
Proof.
  intros H. unfold span. assert (E : fold_left widen l (imax, 0) = (imax, 0)).
  { induction l as [|[[c b] e] l IH]; auto. cbn [fold_left]. unfold widen at 2.
    rewrite (H c b e) by (now left). apply IH. intros; eapply H; right; eauto. }
  rewrite E. reflexivity.
Qed.
Lemma unless_true q : unless true q = q.
Proof. destruct q as [[c b] e]. unfold unless. now rewrite andb_true_r. Qed.
Lemma writes_ok s (buf : @buffer K) i m l mem : (forall x, In x l -> given x = true -> inside s (o_b x) (o_e x) = true) ->
  writes s buf i m l mem = Some (fold_left (wrt i m) (map (fun x => (s, buf, x)) l) mem).
Proof.
  intros H. unfold writes.
  replace (forallb _ l) with true.
  - f_equal. clear H. revert mem. induction l as [|x l IH]; intros mem; cbn [fold_left map]; auto.
  - symmetry. apply forallb_forall. intros x Hx. destruct (given x) eqn:E; auto. cbn [negb orb]. auto.
Qed.
Lemma covers_range x a c : covers x a c = true ->
  given x = true /\ start_of x <= c /\ o_b x + (c - start_of x) < o_e x /\ asked x = true.
Proof.
  unfold covers, asked, given, start_of. destruct (o_ptr x) as [[a' c']|]; [|discriminate].
  rewrite !andb_true_iff, Nat.eqb_eq, Nat.leb_le, !Nat.ltb_lt. cbn [andb]. intros. repeat split; try lia. 
Qed.

Lemma piece_ok i m s : inv i s -> okw m (spanX imax J) -> okw m (spanY imax J) -> okw m (spanBX imax J) ->
  exists s', piece o cplx imax J i m s = Some s' /\ inv (i + m) s'.
Proof.
  intros (Hm & HR & Hr & Hx & HG & HH) WX WY WB. unfold piece. cbv zeta.
  set (sX := spanX imax J) in *. set (sY := spanY imax J) in *. set (sB := spanBX imax J) in *.
  set (X := product o cplx (s_mem s) (j_V J) J i m (fst sX) (snd sX)).
  assert (Rd : forall a c r, s_mem s a c (i + r) = mem0 a c (i + r)).
  { intros a c r. rewrite Hm, (proj2 (Nat.ltb_ge _ _)) by lia. reflexivity. }
  assert (HX : forall j r, X j r = Vh (fst sX + j) (i + r)) by (intros; apply product_ok; auto).
  (* V*h *)
  rewrite writes_ok.
  2:{ intros x H Hg. apply of_out_inside; auto. cbn [In] in *. intuition (subst; auto). }
  cbn [bind map].
  set (T1 := [(sX, X, j_x0 J); (sX, X, j_x1 J); (sX, X, j_x2 J)]).
  set (mem1 := fold_left (wrt i m) T1 (s_mem s)).
  assert (Rd1 : forall a c r, (forall x, In x [j_x0 J; j_x1 J; j_x2 J] -> covers x a c = false) ->
                  mem1 a c (i + r) = mem0 a c (i + r)).
  { intros a c r H. unfold mem1. rewrite fold_out; auto. right. right. intros t Ht.
    cbn [In T1] in Ht. destruct Ht as [<-|[<-|[<-|[]]]]; cbn [xof]; apply H; cbn; auto. }
  (* W*h *)
  set (needed := asked (j_wo J) || asked (j_r J) || nasked (j_rn J) || (0 <? size (j_H J))).
  assert (HY : exists Y, (if fst sY <? snd sY
          then bind (j_W J) (fun W => Some (product o cplx mem1 W J i m (fst sY) (snd sY)))
          else Some (fun _ _ => k0 o)) = Some Y /\
       (needed = true -> forall j r, Y j r = Wh (fst sY + j) (i + r))).
  { destruct needed eqn:En.
    - assert (HW : j_W J <> None).
      { apply (lay_needW J Lay). unfold needed in En. rewrite !orb_true_iff, Nat.ltb_lt in En. tauto. }
      assert (Hlt : fst sY < snd sY).
      { unfold needed in En. rewrite !orb_true_iff in En. unfold sY, spanY.
        assert (G : forall b e l, In (true, b, e) l -> b < e -> fst (span imax l) < snd (span imax l)).
        { intros b e l Hin Hbe. destruct (span_in imax l b e Hin). lia. }
        destruct En as [[[En|En]|En]|En].
        - apply (G (o_b (j_wo J)) (o_e (j_wo J))); [unfold of_out; rewrite En; cbn; auto|].
          unfold asked in En. apply andb_true_iff in En. now apply Nat.ltb_lt.
        - apply (G (o_b (j_r J)) (o_e (j_r J))); [unfold of_out at 2; rewrite En; cbn; auto|].
          unfold asked in En. apply andb_true_iff in En. now apply Nat.ltb_lt.
        - apply (G (n_b (j_rn J)) (n_e (j_rn J))); [unfold of_norms; rewrite En; cbn; auto|].
          unfold nasked in En. apply andb_true_iff in En. now apply Nat.ltb_lt.
        - apply (G 0 (size (j_H J))); [unfold of_size; rewrite En; cbn; auto|]. now apply Nat.ltb_lt. }
      rewrite (proj2 (Nat.ltb_lt _ _)) by auto.
      destruct (j_W J) as [W|] eqn:EW; [|congruence]. cbn [bind]. eexists. split; [reflexivity|].
      intros _ j r. unfold Wh. rewrite EW. cbn [ptr_or]. apply product_ok; auto.
      intros l Hl. apply Rd1. intros x Hin. destruct (covers x (fst W) (snd W + l)) eqn:Ec; auto.
      pose proof (lay_W J Lay x W Hin EW l Ec). lia.
    - unfold needed in En. rewrite !orb_false_iff in En. destruct En as [[[E1 E2] E3] E4].
      assert (Es : sY = (imax, imax)).
      { apply span_none. unfold of_out, of_norms, of_size. rewrite E1, E2, E3, E4.
        intros c b e Hin. cbn [In] in Hin. intuition congruence. }
      rewrite Es. cbn [fst snd]. rewrite Nat.ltb_irrefl. eexists. split; [reflexivity|discriminate]. }
  destruct HY as (Y & EY & HY). rewrite EY. cbn [bind].
  rewrite writes_ok.
  2:{ intros x H Hg. apply of_out_inside; auto. cbn [In] in *. intuition (subst; auto). }
  cbn [bind map].
  set (mem2 := fold_left (wrt i m) [(sY, Y, j_wo J)] mem1).
  assert (Rd2 : forall a c r, (forall x, In x [j_x0 J; j_x1 J; j_x2 J; j_wo J] -> covers x a c = false) ->
                  mem2 a c (i + r) = mem0 a c (i + r)).
  { intros a c r H. unfold mem2. rewrite fold_out; [apply Rd1; intros x Hx'; apply H; cbn in *; tauto|].
    right. right. intros t Ht. cbn [In] in Ht. destruct Ht as [<-|[]]; cbn [xof]; apply H; cbn; auto. }
  (* B*V*h *)
  set (BX := match j_BV J with Some BV => product o cplx mem2 BV J i m (fst sB) (snd sB) | None => _ end).
  assert (HB : noBV J = false -> forall j r, BX j r = Bh (fst sB + j) (i + r)).
  { unfold noBV, BX, Bh. destruct (j_BV J) as [BV|] eqn:EB; [|discriminate]. intros _ j r. cbn [ptr_or].
    apply product_ok; auto. intros l Hl. apply Rd2. intros x Hin.
    destruct (covers x (fst BV) (snd BV + l)) eqn:Ec; auto.
    pose proof (lay_BV J Lay x BV Hin EB l Ec). lia. }
  assert (HBV : noBV J = true -> Bh = Vh).
  { unfold noBV, Bh, Vh. destruct (j_BV J); [discriminate|reflexivity]. }
  assert (NB : noBV J = true -> forall x, In x [j_bx0 J; j_bx1 J; j_bx2 J] -> asked x = false).
  { unfold noBV. destruct (j_BV J) eqn:EB; [discriminate|]. intros _ x Hin.
    destruct (lay_noBV J Lay EB) as (A1 & A2 & A3). cbn in Hin. intuition (subst; auto). }
  rewrite writes_ok.
  2:{ intros x H Hg. destruct (noBV J) eqn:EN.
      - specialize (NB eq_refl x H). unfold asked in NB. rewrite Hg in NB. cbn [andb] in NB.
        apply Nat.ltb_ge in NB. unfold inside. now rewrite (proj2 (Nat.leb_le _ _)).
      - unfold sB, spanBX. rewrite EN. apply of_out_inside; auto. cbn [In] in *. intuition (subst; auto). }
  cbn [bind map].
  set (mem3 := fold_left (wrt i m) [(sB, BX, j_bx0 J); (sB, BX, j_bx1 J); (sB, BX, j_bx2 J)] mem2).
  set (sZ := if noBV J then sX else sB). set (Z := if noBV J then X else BX).
  assert (HZ : forall j r, Z j r = Bh (fst sZ + j) (i + r)).
  { unfold Z, sZ. destruct (noBV J) eqn:EN; [|now apply HB]. intros j r. rewrite HBV by auto. apply HX. }
  (* G *)
  assert (QG : exists G, match j_G J with
        | Some n => if (n <=? snd sX - fst sX) && (noBV J || (n <=? snd sB - fst sB))
                    then Some (gramm o X Z i m (s_G s)) else None
        | None => Some (s_G s) end = Some G /\
      forall n a b, j_G J = Some n -> a < n -> b < n -> G a b = upto (i + m) (Vh a) (Bh b)).
  { destruct (j_G J) as [n|] eqn:EG; [|eexists; split; [reflexivity|discriminate]].
    assert (I1 : In (of_size (Some n)) [of_out (j_x0 J); of_out (j_x1 J); of_out (j_x2 J); unless (noBV J) (of_out (j_r J));
        of_size (j_G J); of_size (j_H J); unless (noBV J) (of_norms (j_rn J)); of_norms (j_xn J)])
      by (rewrite EG; cbn [In]; auto 10).
    rewrite (proj2 (Nat.leb_le _ _)) by (unfold sX, spanX; rewrite EG in *; now apply of_size_span).
    assert (I2 : noBV J = false -> sB = span imax [of_out (j_bx0 J); of_out (j_bx1 J); of_out (j_bx2 J); of_out (j_r J);
                    of_size (Some n); of_norms (j_rn J)]).
    { intros E. unfold sB, spanBX. now rewrite E, EG. }
    replace (noBV J || (n <=? snd sB - fst sB)) with true.
    2:{ destruct (noBV J) eqn:EN; auto. cbn [orb]. symmetry. apply Nat.leb_le. rewrite I2 by auto.
        apply of_size_span. cbn; auto 10. }
    cbn [andb]. eexists. split; [reflexivity|]. intros n' a b E Ha Hb. injection E as <-.
    assert (ZX : fst sX = 0) by (unfold sX, spanX; rewrite EG in *; eapply of_size_zero; eauto).
    assert (ZZ : fst sZ = 0).
    { unfold sZ. destruct (noBV J) eqn:EN; auto. rewrite I2 by auto. eapply of_size_zero; [|exact Ha]. cbn; auto 10. }
    unfold gramm. rewrite upto_add, (HG n) by auto.
    assert (E1 : dot o m (X a) (Z b) = upto m (fun r => Vh a (i + r)) (fun r => Bh b (i + r))).
    { apply upto_ext; intros r _; [rewrite HX, ZX|rewrite HZ, ZZ]; reflexivity. }
    rewrite E1. destruct (Nat.eqb_spec i 0) as [->|]; [|ring]. unfold upto at 2 3. cbn [sum]. ring. }
  destruct QG as (G & EG & QG). rewrite EG. cbn [bind].
  (* H *)
  assert (QH : exists H, match j_H J with
        | Some n => if (n <=? snd sX - fst sX) && (n <=? snd sY - fst sY)
                    then Some (gramm o X Y i m (s_H s)) else None
        | None => Some (s_H s) end = Some H /\
      forall n a b, j_H J = Some n -> a < n -> b < n -> H a b = upto (i + m) (Vh a) (Wh b)).
  { destruct (j_H J) as [n|] eqn:EH; [|eexists; split; [reflexivity|discriminate]].
    assert (I1 : In (of_size (Some n)) [of_out (j_x0 J); of_out (j_x1 J); of_out (j_x2 J); unless (noBV J) (of_out (j_r J));
        of_size (j_G J); of_size (j_H J); unless (noBV J) (of_norms (j_rn J)); of_norms (j_xn J)])
      by (rewrite EH; cbn [In]; auto 10).
    assert (I2 : In (of_size (Some n)) [of_out (j_wo J); of_out (j_r J); of_norms (j_rn J); of_size (j_H J)])
      by (rewrite EH; cbn [In]; auto 10).
    rewrite (proj2 (Nat.leb_le _ _)) by (unfold sX, spanX; rewrite EH in *; now apply of_size_span).
    rewrite (proj2 (Nat.leb_le _ _)) by (unfold sY, spanY; rewrite EH in *; now apply of_size_span).
    cbn [andb]. eexists. split; [reflexivity|]. intros n' a b E Ha Hb. injection E as <-.
    assert (ZX : fst sX = 0) by (unfold sX, spanX; rewrite EH in *; eapply of_size_zero; eauto).
    assert (ZY : fst sY = 0) by (unfold sY, spanY; rewrite EH in *; eapply of_size_zero; eauto).
    assert (En : needed = true).
    { unfold needed. rewrite ?EH. cbn [size]. rewrite (proj2 (Nat.ltb_lt 0 n)) by lia. now rewrite orb_true_r. }
    unfold gramm. rewrite upto_add, (HH n) by auto.
    assert (E1 : dot o m (X a) (Y b) = upto m (fun r => Vh a (i + r)) (fun r => Wh b (i + r))).
    { apply upto_ext; intros r _; [rewrite HX, ZX|rewrite (HY En), ZY]; reflexivity. }
    rewrite E1. destruct (Nat.eqb_spec i 0) as [->|]; [|ring]. unfold upto at 2 3. cbn [sum]. ring. }
  destruct QH as (H & EH & QH). rewrite EH. cbn [bind].
  (* norms of V*h *)
  assert (QX : exists xn, (if n_given (j_xn J) then
           if inside sX (n_b (j_xn J)) (n_e (j_xn J)) then
             Some (fun j => kadd o (s_x s j)
                     (dot o m (X (n_b (j_xn J) + j - fst sX)) (X (n_b (j_xn J) + j - fst sX))))
           else None
         else Some (s_x s)) = Some xn /\
      forall j, n_given (j_xn J) = true -> n_b (j_xn J) + j < n_e (j_xn J) ->
        xn j = upto (i + m) (Vh (n_b (j_xn J) + j)) (Vh (n_b (j_xn J) + j))).
  { destruct (n_given (j_xn J)) eqn:Ex; [|eexists; split; [reflexivity|discriminate]].
    assert (I1 : inside sX (n_b (j_xn J)) (n_e (j_xn J)) = true).
    { apply of_norms_inside; auto. cbn [In]. auto 10. }
    rewrite I1. eexists. split; [reflexivity|]. intros j _ Hj. cbv beta.
    destruct (inside_lt _ _ _ _ I1 Hj) as [L1 L2].
    rewrite upto_add, Hx by auto. f_equal. apply upto_ext; intros r _; rewrite HX; f_equal; lia. }
  destruct QX as (xn & EX & QX). rewrite EX. cbn [bind].
  (* residuals *)
  assert (HRes : forall b j r e, inside sY b e = true -> inside sZ b e = true -> b + j < e -> needed = true ->
     residuals o J sY sZ Y Z b j r = Rh (b + j) (i + r)).
  { intros b j r e I1 I2 Hj En. destruct (inside_lt _ _ _ _ I1 Hj), (inside_lt _ _ _ _ I2 Hj).
    unfold residuals, Rh, residual. rewrite (HY En), HZ.
    replace (fst sY + (b - fst sY + j)) with (b + j) by lia.
    replace (fst sZ + (b - fst sZ + j)) with (b + j) by lia. reflexivity. }
  set (Res := residuals o J sY sZ Y Z (o_b (j_r J))).
  set (T := T1 ++ [(sY, Y, j_wo J)] ++ [(sB, BX, j_bx0 J); (sB, BX, j_bx1 J); (sB, BX, j_bx2 J)] ++
            [((o_b (j_r J), 0), Res, j_r J)]).
  set (mem4 := wr (o_b (j_r J), 0) Res i m mem3 (j_r J)).
  assert (M4 : forall a c r, mem4 a c r = fold_left (wrt i m) T (s_mem s) a c r) by reflexivity.
  assert (Ir : given (j_r J) = true -> inside sY (o_b (j_r J)) (o_e (j_r J)) = true /\
                                       inside sZ (o_b (j_r J)) (o_e (j_r J)) = true).
  { intros Hg. split; [apply of_out_inside; auto; cbn [In]; auto 10|].
    unfold sZ. destruct (noBV J) eqn:EN.
    - unfold sX, spanX. rewrite EN. apply of_out_inside; auto. rewrite !unless_true. cbn [In]. auto 10.
    - unfold sB, spanBX. rewrite EN. apply of_out_inside; auto. cbn [In]. auto 10. }
  assert (Vals : forall t x v a c r, In (t, (x, v)) (combine T values) -> covers x a c = true ->
             xof t = x /\ at_of t c r = v (o_b x + (c - start_of x)) (i + r)).
  { intros t x v a c r Hin Hc. destruct (covers_range x a c Hc) as (Cg & C1 & C2 & C3).
    assert (GX : forall x, In x [j_x0 J; j_x1 J; j_x2 J] -> covers x a c = true ->
               at_of (sX, X, x) c r = Vh (o_b x + (c - start_of x)) (i + r)).
    { intros y Hy Hcy. destruct (covers_range y a c Hcy) as (D1 & D2 & D3 & D4).
      assert (I1 : inside sX (o_b y) (o_e y) = true).
      { apply of_out_inside; auto. cbn [In] in *. intuition (subst; auto). }
      destruct (inside_lt _ _ _ _ I1 D3). cbn [at_of]. fold (start_of y). rewrite HX. f_equal. lia. }
    assert (GB : forall x, In x [j_bx0 J; j_bx1 J; j_bx2 J] -> covers x a c = true ->
               at_of (sB, BX, x) c r = Bh (o_b x + (c - start_of x)) (i + r)).
    { intros y Hy Hcy. destruct (covers_range y a c Hcy) as (D1 & D2 & D3 & D4).
      destruct (noBV J) eqn:EN; [rewrite (NB eq_refl y Hy) in D4; discriminate|].
      assert (I1 : inside sB (o_b y) (o_e y) = true).
      { unfold sB, spanBX. rewrite EN. apply of_out_inside; auto. cbn [In] in *. intuition (subst; auto). }
      destruct (inside_lt _ _ _ _ I1 D3). cbn [at_of]. fold (start_of y). rewrite HB by auto. f_equal. lia. }
    unfold T, T1, values in Hin. cbn [combine app In] in Hin.
    repeat (destruct Hin as [Hin|Hin]; [injection Hin as <- <- <-; split; [reflexivity|]|]); try contradiction;
      try (apply GX; cbn; auto; fail); try (apply GB; cbn; auto; fail).
    - assert (I1 : inside sY (o_b (j_wo J)) (o_e (j_wo J)) = true) by (apply of_out_inside; auto; cbn [In]; auto).
      destruct (inside_lt _ _ _ _ I1 C2). cbn [at_of]. fold (start_of (j_wo J)). rewrite HY; [f_equal; lia|].
      unfold needed. now rewrite C3.
    - destruct (Ir Cg) as [I1 I2]. cbn [at_of fst]. fold (start_of (j_r J)).
      rewrite Nat.sub_diag. cbn [Nat.add]. apply (HRes _ _ _ (o_e (j_r J))); auto.
      unfold needed. rewrite C3. now rewrite orb_true_r. }
  assert (Mem : forall mem', (forall a c r, mem' a c r = mem4 a c r) ->
     forall a c r, mem' a c r = if r <? i + m then fin a c r else mem0 a c r).
  { intros mem' E a c r. rewrite E, M4.
    destruct (Nat.ltb_spec r (i + m)) as [Hr1|Hr1].
    2:{ rewrite fold_out by auto. rewrite Hm, (proj2 (Nat.ltb_ge r i)) by lia. reflexivity. }
    destruct (Nat.ltb_spec r i) as [Hr2|Hr2].
    { rewrite fold_out by auto. rewrite Hm, (proj2 (Nat.ltb_lt r i)) by lia. reflexivity. }
    destruct (existsb (fun x => covers x a c) (outputs J)) eqn:Ee.
    - apply existsb_exists in Ee. destruct Ee as (x & Hin & Hc).
      assert (Hq : exists t v, In (t, (x, v)) (combine T values)).
      { unfold T, T1, values. cbn [combine app In]. cbn [outputs In] in Hin.
        repeat (destruct Hin as [<-|Hin]; [do 2 eexists; auto 12; fail|]). contradiction. }
      destruct Hq as (t & v & Hq). destruct (Vals t x v a c (r - i) Hq Hc) as [E1 E2].
      rewrite (fold_in i m T (s_mem s) a c r t); [|apply (lay_disjoint J Lay)| |now rewrite E1|lia].
      + rewrite E2, (fin_in x v) by (auto; eapply in_combine_r; eauto). f_equal. lia.
      + eapply in_combine_l; eauto.
    - assert (Hn : forall x, In x (outputs J) -> covers x a c = false).
      { intros x Hin. destruct (covers x a c) eqn:Ec; auto.
        assert (existsb (fun x => covers x a c) (outputs J) = true) by (apply existsb_exists; eauto). congruence. }
      rewrite fold_out.
      + rewrite Hm, (proj2 (Nat.ltb_ge r i)), fin_out by (auto; lia). reflexivity.
      + right. right. intros t Ht. apply Hn. change (outputs J) with (map xof T). now apply in_map. }
  assert (QR : exists q, match o_ptr (j_r J) with
        | Some (a, c) =>
          if inside sY (o_b (j_r J)) (o_e (j_r J)) && inside sZ (o_b (j_r J)) (o_e (j_r J)) then
            Some (mem4, if j_Rnorms J then fun j => kadd o (s_R s j)
                             (dot o m (fun r => mem4 a (c + j) (i + r)) (fun r => mem4 a (c + j) (i + r)))
                        else s_R s)
          else None
        | None => Some (mem3, s_R s) end = Some q /\
      (forall a c r, fst q a c r = mem4 a c r) /\
      forall j, given (j_r J) = true -> j_Rnorms J = true -> o_b (j_r J) + j < o_e (j_r J) ->
        snd q j = upto (i + m) (Rh (o_b (j_r J) + j)) (Rh (o_b (j_r J) + j))).
  { destruct (o_ptr (j_r J)) as [[ra rc]|] eqn:Ep.
    - assert (Hg : given (j_r J) = true) by (unfold given; now rewrite Ep).
      destruct (Ir Hg) as [I1 I2]. rewrite I1, I2. cbn [andb]. eexists. split; [reflexivity|]. split; [reflexivity|].
      intros j _ EN Hj. cbn [snd]. rewrite EN. rewrite upto_add, HR by auto. f_equal.
      assert (E1 : forall r, r < m -> mem4 ra (rc + j) (i + r) = Rh (o_b (j_r J) + j) (i + r)).
      { intros r Hr'. rewrite (Mem mem4) by auto. rewrite (proj2 (Nat.ltb_lt _ _)) by lia.
        rewrite (fin_in (j_r J) Rh); [|unfold values; cbn [In]; auto 10|].
        - unfold start_of. rewrite Ep. f_equal. lia.
        - unfold covers. rewrite Ep, Nat.eqb_refl, (proj2 (Nat.leb_le _ _)), (proj2 (Nat.ltb_lt _ _)) by lia. reflexivity. }
      apply upto_ext; auto.
    - eexists. split; [reflexivity|]. split.
      + intros a c r. cbn [fst]. unfold mem4, wr, covers. rewrite Ep. reflexivity.
      + unfold given. rewrite Ep. discriminate. }
  destruct QR as (qr & EQ & QM & QR).
  match goal with |- context [bind ?e _] => change e with (match o_ptr (j_r J) with
        | Some (a, c) =>
          if inside sY (o_b (j_r J)) (o_e (j_r J)) && inside sZ (o_b (j_r J)) (o_e (j_r J)) then
            Some (mem4, if j_Rnorms J then fun j => kadd o (s_R s j)
                             (dot o m (fun r => mem4 a (c + j) (i + r)) (fun r => mem4 a (c + j) (i + r)))
                        else s_R s)
          else None
        | None => Some (mem3, s_R s) end) end.
  rewrite EQ. cbn [bind].
  assert (Qr : exists rn, (if n_given (j_rn J) then
           if inside sY (n_b (j_rn J)) (n_e (j_rn J)) && inside sZ (n_b (j_rn J)) (n_e (j_rn J)) then
             Some (fun j => kadd o (s_r s j) (dot o m (residuals o J sY sZ Y Z (n_b (j_rn J)) j)
                                                      (residuals o J sY sZ Y Z (n_b (j_rn J)) j)))
           else None
         else Some (s_r s)) = Some rn /\
      forall j, n_given (j_rn J) = true -> n_b (j_rn J) + j < n_e (j_rn J) ->
        rn j = upto (i + m) (Rh (n_b (j_rn J) + j)) (Rh (n_b (j_rn J) + j))).
  { destruct (n_given (j_rn J)) eqn:Ex; [|eexists; split; [reflexivity|discriminate]].
    assert (I1 : inside sY (n_b (j_rn J)) (n_e (j_rn J)) = true).
    { apply of_norms_inside; auto. cbn [In]. auto 10. }
    assert (I2 : inside sZ (n_b (j_rn J)) (n_e (j_rn J)) = true).
    { unfold sZ. destruct (noBV J) eqn:EN.
      - unfold sX, spanX. rewrite EN. apply of_norms_inside; auto. rewrite !unless_true. cbn [In]. auto 10.
      - unfold sB, spanBX. rewrite EN. apply of_norms_inside; auto. cbn [In]. auto 10. }
    rewrite I1, I2. cbn [andb]. eexists. split; [reflexivity|]. intros j _ Hj. cbv beta.
    rewrite upto_add, Hr by auto. f_equal.
    assert (En : needed = true).
    { unfold needed, nasked. rewrite Ex, (proj2 (Nat.ltb_lt (n_b (j_rn J)) (n_e (j_rn J)))) by lia.
      cbn [andb]. now rewrite !orb_true_r. }
    apply upto_ext; intros r _; now apply (HRes _ _ _ (n_e (j_rn J))). }
  destruct Qr as (rn & Er & Qr).
  match goal with |- context [bind ?e _] => change e with (if n_given (j_rn J) then
           if inside sY (n_b (j_rn J)) (n_e (j_rn J)) && inside sZ (n_b (j_rn J)) (n_e (j_rn J)) then
             Some (fun j => kadd o (s_r s j) (dot o m (residuals o J sY sZ Y Z (n_b (j_rn J)) j)
                                                      (residuals o J sY sZ Y Z (n_b (j_rn J)) j)))
           else None
         else Some (s_r s)) end.
  rewrite Er. cbn [bind]. eexists. split; [reflexivity|].
  repeat split; cbn [s_mem s_R s_r s_x s_G s_H]; auto.
Qed.
End Piece.
