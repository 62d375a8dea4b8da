(** Proofs about the results copied back. *)
From Coq Require Import List Arith ZArith Bool Lia.
From Verif Require Import Base ReturnModel.
Import ListNotations.

Lemma get_mid : forall A (f : list A) x r, get (f ++ x :: r) (length f) = Some x.
Proof. intros. unfold get. rewrite nth_error_app2, Nat.sub_diag by lia. reflexivity. Qed.

Lemma upd_mid : forall A (f : list A) x r v, upd (f ++ x :: r) (length f) v = f ++ v :: r.
Proof. induction f; intros; cbn; [|rewrite IHf]; reflexivity. Qed.

Lemma put_mid : forall A (f : list A) x r v, put (f ++ x :: r) (length f) v = Some (f ++ v :: r).
Proof. intros. rewrite put_some; [rewrite upd_mid; reflexivity|rewrite app_length; cbn; lia]. Qed.

Lemma filter_length_le : forall A (f : A -> bool) l, length (filter f l) <= length l.
Proof. induction l; cbn; [lia|]. destruct (f a); cbn; lia. Qed.

Lemma skipn_skipn : forall A x y (l : list A), skipn x (skipn y l) = skipn (y + x) l.
Proof. induction y; intros; cbn; auto. destruct l; cbn; auto. apply skipn_nil. Qed.

Section S.
Context {V : Type}.
Notation cand := (cand V).
Notation out := (out V).

(** The block is written over as many places. *)
Lemma write_block_spec : forall (b : list cand) e F N R FV NV RV,
  length N = length b -> length NV = length b -> length FV = length F ->
  write_block b (length F) (Out e (F ++ N ++ R) (FV ++ NV ++ RV)) =
  Some (Out e (F ++ map c_norm b ++ R) (FV ++ map c_vec b ++ RV)).
Proof.
  induction b as [|c b IH]; intros e F N R FV NV RV H1 H2 H3.
  - destruct N, NV; try discriminate. reflexivity.
  - destruct N as [|n N], NV as [|v NV]; try discriminate. cbn [length] in *.
    cbn [write_block r_norms r_vecs r_vals app]. rewrite put_mid. cbn [bind].
    rewrite <- H3, put_mid. cbn [bind]. rewrite H3.
    replace (S (length F)) with (length (F ++ [c_norm c])) by (rewrite app_length; cbn; lia).
    replace (F ++ c_norm c :: N ++ R) with ((F ++ [c_norm c]) ++ N ++ R) by (rewrite <- app_assoc; reflexivity).
    replace (FV ++ c_vec c :: NV ++ RV) with ((FV ++ [c_vec c]) ++ NV ++ RV) by (rewrite <- app_assoc; reflexivity).
    rewrite IH; try lia.
    + rewrite <- !app_assoc. reflexivity.
    + rewrite !app_length. cbn. lia.
Qed.

Lemma shift_gap : forall A (G : list A) x, exists G', length G' = length G /\
  forall F R, F ++ G ++ x :: R = (F ++ [hd x (G ++ [x])]) ++ G' ++ R /\
         upd (F ++ G ++ x :: R) (length F) x = (F ++ [x]) ++ G' ++ R.
Proof.
  intros A G x. destruct G as [|g G].
  - exists []. split; auto. intros F R. cbn. rewrite <- app_assoc. split; auto.
    rewrite upd_mid, <- ?app_assoc. reflexivity.
  - exists (G ++ [x]). split; [rewrite app_length; cbn; lia|]. intros F R. cbn [app hd].
    rewrite upd_mid, <- ?app_assoc. cbn. rewrite <- ?app_assoc. split; reflexivity.
Qed.

Definition taken (g : side) (shift : Z) (c : cand) : bool := negb (ignored g shift (c_val c) (c_norm c)).

Lemma accept_block_spec : forall g shift (b : list cand) FE RE F G R FV GV RV,
  length FE = length F -> length FV = length F -> length GV = length G ->
  length (filter (taken g shift) b) <= length RE ->
  exists G' GV', length G' = length G + length b - length (filter (taken g shift) b) /\
    length GV' = length G' /\
    accept_block g shift b (length F + length G) (length F)
      (Out (FE ++ RE) (F ++ G ++ map c_norm b ++ R) (FV ++ GV ++ map c_vec b ++ RV)) =
    Some (length F + length (filter (taken g shift) b),
      Out (FE ++ map c_val (filter (taken g shift) b) ++
             skipn (length (filter (taken g shift) b)) RE)
          (F ++ map c_norm (filter (taken g shift) b) ++ G' ++ R)
          (FV ++ map c_vec (filter (taken g shift) b) ++ GV' ++ RV)).
Proof.
  intros g shift. induction b as [|c b IH]; intros FE RE F G R FV GV RV H1 H2 H3 H4.
  - exists G, GV. cbn. split; [lia|]. split; [auto|]. rewrite Nat.add_0_r. reflexivity.
  - cbn [map app accept_block r_norms r_vals r_vecs].
    assert (Eg : get (F ++ G ++ c_norm c :: map c_norm b ++ R) (length F + length G) = Some (c_norm c)).
    { rewrite app_assoc. rewrite <- app_length. apply get_mid. }
    rewrite Eg. cbn [bind]. cbn [filter] in *.
    assert (Et : taken g shift c = negb (ignored g shift (c_val c) (c_norm c))) by reflexivity.
    destruct (ignored g shift (c_val c) (c_norm c)) eqn:Ei; cbn [negb] in *; rewrite Et in *.
    + destruct (IH FE RE F (G ++ [c_norm c]) R FV (GV ++ [c_vec c]) RV) as (G' & GV' & X1 & X2 & X3); auto.
      { rewrite !app_length. cbn. lia. }
      exists G', GV'. split; [rewrite X1, app_length; cbn; pose proof (filter_length_le _ (taken g shift) b); lia|].
      split; [auto|].
      rewrite app_length in X3. cbn [length] in X3. replace (length F + (length G + 1)) with (S (length F + length G)) in X3 by lia.
      rewrite <- !app_assoc in X3. cbn [app] in X3. exact X3.
    + destruct RE as [|e RE]; [cbn in H4; lia|]. rewrite <- H1, put_mid. cbn [bind]. rewrite H1.
      destruct (shift_gap _ G (c_norm c)) as (G1 & L1 & E1).
      destruct (shift_gap _ GV (c_vec c)) as (G2 & L2 & E2).
      rewrite put_some by (rewrite !app_length; cbn; lia). cbn [bind].
      rewrite (proj2 (E1 F (map c_norm b ++ R))).
      assert (Ev : get (FV ++ GV ++ c_vec c :: map c_vec b ++ RV) (length F + length G) = Some (c_vec c)).
      { rewrite app_assoc. replace (length F + length G) with (length (FV ++ GV)) by (rewrite app_length; lia). apply get_mid. }
      rewrite Ev. cbn [bind]. rewrite put_some by (rewrite !app_length; cbn; lia). cbn [bind].
      pose proof (proj2 (E2 FV (map c_vec b ++ RV))) as E2'. rewrite H2 in E2'. rewrite E2'. clear E2'.
      destruct (IH (FE ++ [c_val c]) RE (F ++ [c_norm c]) G1 R (FV ++ [c_vec c]) G2 RV) as (G' & GV' & X1 & X2 & X3);
        try (rewrite ?app_length; cbn in *; lia).
      exists G', GV'. cbn [length map skipn]. split; [pose proof (filter_length_le _ (taken g shift) b); lia|]. split; [auto|].
      rewrite !app_length in X3. cbn [length] in X3. rewrite L1 in X3.
      replace (length F + 1 + length G) with (S (length F + length G)) in X3 by lia.
      replace (length F + 1) with (S (length F)) in X3 by lia.
      rewrite <- !app_assoc in X3. cbn [app] in X3.
      rewrite <- !app_assoc. cbn [app]. rewrite X3. f_equal. f_equal. lia.
Qed.

Lemma firstn_app_le : forall A n (l1 l2 : list A), n <= length l1 -> firstn n (l1 ++ l2) = firstn n l1.
Proof. intros. rewrite firstn_app. replace (n - length l1) with 0 by lia. cbn. apply app_nil_r. Qed.

Lemma copy_loop_spec : forall g shift E fuel (cs : list cand) FE RE F N FV NV,
  length cs < fuel ->
  length FE = length F -> length FV = length F ->
  length F <= E -> length (FE ++ RE) = E -> length (F ++ N) = E -> E <= length (FV ++ NV) ->
  let acc := firstn (E - length F) (filter (taken g shift) cs) in
  exists RE' N' NV',
    length (FE ++ map c_val acc ++ RE') = E /\ length (F ++ map c_norm acc ++ N') = E /\
    length (FV ++ map c_vec acc ++ NV') = length (FV ++ NV) /\
    RE' = skipn (length acc) RE /\
    copy_loop fuel g shift E cs (length F) (Out (FE ++ RE) (F ++ N) (FV ++ NV)) =
    Some (length F + length acc,
      Out (FE ++ map c_val acc ++ RE') (F ++ map c_norm acc ++ N') (FV ++ map c_vec acc ++ NV')).
Proof.
  intros g shift E. induction fuel as [|fuel IH]; intros cs FE RE F N FV NV Hf H1 H2 H3 H4 H5 H6; [lia|].
  cbn [copy_loop]. rewrite app_length in H4, H5, H6.
  destruct ((0 <? length cs) && (length F <? E)) eqn:Ec.
  2:{ assert (firstn (E - length F) (filter (taken g shift) cs) = []) as ->.
      { apply andb_false_iff in Ec. destruct Ec as [Ec|Ec]; apply Nat.ltb_ge in Ec.
        - destruct cs; [|cbn in Ec; lia]. cbn. apply firstn_nil.
        - replace (E - length F) with 0 by lia. reflexivity. }
      exists RE, N, NV. cbn. rewrite Nat.add_0_r. rewrite !app_length. repeat split; auto; lia. }
  apply andb_true_iff in Ec. destruct Ec as [Ec1 Ec2].
  apply Nat.ltb_lt in Ec1. apply Nat.ltb_lt in Ec2.
  set (k := Nat.min (E - length F) (length cs)).
  assert (Lb : length (firstn k cs) = k) by (rewrite firstn_length; lia).
  rewrite <- (firstn_skipn k N), <- (firstn_skipn k NV).
  rewrite write_block_spec; auto; try (rewrite firstn_length; lia).
  cbn [bind].
  pose proof (filter_length_le _ (taken g shift) (firstn k cs)) as Lf. rewrite Lb in Lf.
  destruct (accept_block_spec g shift (firstn k cs) FE RE F [] (skipn k N) FV [] (skipn k NV))
    as (G' & GV' & X1 & X2 & X3); auto; [lia|].
  cbn [length app] in X3. rewrite Nat.add_0_r in X3. rewrite X3. cbn [bind fst snd]. clear X3.
  set (a1 := filter (taken g shift) (firstn k cs)) in *.
  cbn [length] in X1.
  specialize (IH (skipn k cs) (FE ++ map c_val a1) (skipn (length a1) RE) (F ++ map c_norm a1)
    (G' ++ skipn k N) (FV ++ map c_vec a1) (GV' ++ skipn k NV)).
  destruct IH as (RE' & N' & NV' & Y1 & Y2 & Y3 & Y4 & Y5);
    try (rewrite ?app_length, ?map_length, ?skipn_length; lia).
  assert (Eacc : firstn (E - length F) (filter (taken g shift) cs) =
    a1 ++ firstn (E - length (F ++ map c_norm a1)) (filter (taken g shift) (skipn k cs))).
  { rewrite <- (firstn_skipn k cs) at 1. rewrite filter_app. fold a1. rewrite firstn_app.
    rewrite (firstn_all2 (n := E - length F) a1) by (unfold k in Lf; clear - Lf; lia).
    rewrite app_length, map_length. f_equal. f_equal. lia. }
  rewrite Eacc. exists RE', N', NV'.
  set (a2 := firstn (E - length (F ++ map c_norm a1)) (filter (taken g shift) (skipn k cs))) in *.
  rewrite !map_app, <- !app_assoc in *.
  split; [exact Y1|]. split; [exact Y2|]. split.
  { rewrite Y3. rewrite !app_length, map_length, skipn_length. rewrite ?firstn_length, ?skipn_length; lia. }
  split.
  { rewrite Y4, app_length, skipn_skipn. reflexivity. }
  rewrite !app_length, !map_length in Y5. rewrite Y5. rewrite app_length.
  f_equal. f_equal. lia.
Qed.

Lemma mark_spec : forall k F N, length N = k ->
  mark k (length F) (F ++ N) = Some (F ++ repeat (-1)%Z k).
Proof.
  induction k as [|k IH]; intros F N H.
  - destruct N; [reflexivity|discriminate].
  - destruct N as [|n N]; [discriminate|]. cbn [mark]. rewrite put_mid. cbn [bind].
    replace (F ++ (-1)%Z :: N) with ((F ++ [(-1)%Z]) ++ N) by (rewrite <- app_assoc; reflexivity).
    replace (S (length F)) with (length (F ++ [(-1)%Z])) by (rewrite app_length; cbn; lia).
    rewrite IH by (cbn in H; lia). rewrite <- app_assoc. reflexivity.
Qed.
End S.
