(** C51: the projected problem after a restart. *)
From Coq Require Import List Arith Bool Lia Field Setoid Morphisms.
From Verif Require Import Base ProjModel SpecProj MatAlg ExtractModel SpecExtract PropsExtract ReprojModel SpecReproj.
Import ListNotations.

Section Proofs.
Context {K : Type} (o : scal K) (L : laws o).
Notation mx := (@mx K).
Add Field Kfield4 : (l_field o L).

Lemma find_index_spec perm ip rs c i : i + c = rs -> 
  find_index perm ip i c rs = rs /\ (forall k, i <= k < rs -> perm k <> ip) \/
  (i <= find_index perm ip i c rs < rs /\ perm (find_index perm ip i c rs) = ip).
Proof.
  revert i. induction c as [|c IH]; intros i Hi; cbn [find_index].
  - left. split; [reflexivity|]. intros. lia.
  - destruct (Nat.eqb_spec (perm i) ip) as [E|E].
    + right. split; [lia|exact E].
    + destruct (IH (i + 1)) as [[A B]|[A B]]; [lia| |].
      * left. split; [exact A|]. intros k Hk. destruct (Nat.eq_dec k i) as [->|]; [exact E|]. apply B. lia.
      * right. split; [lia|exact B].
Qed.

Lemma form_shift N X G Y i j a b : form o N X G Y (i + a) (j + b) = form o N (from 0 i X) G (from 0 j Y) a b.
Proof. reflexivity. Qed.

(** H after the restart. *)
Lemma rr_H_right N n rs np ip A B V Y H vals :
  hermitian o N A -> holds_upper n H (form o N V A V) -> ip + np <= rs ->
  let Vn := mul o n V Y in
  (forall j, j < rs -> kept ip np j -> ritz_pairs o N n A B V Vn vals j /\ orthonormal_at o N rs B Vn j) ->
  holds_upper rs (rr_H o n rs np ip H Y vals) (form o N Vn A Vn) /\
  (forall i j, i < rs -> j < rs -> kept ip np j -> form o N Vn A Vn i j = kmul o (form o N Vn B Vn i j) (vals j)) /\
  (forall i j, i < rs -> j < rs -> kept ip np i -> i <> j -> form o N Vn A Vn i j = k0 o).
Proof.
  intros HA HH Hnp Vn Hreg.
  assert (EP : forall i j, i < rs -> j < rs -> kept ip np j ->
            form o N Vn A Vn i j = kmul o (form o N Vn B Vn i j) (vals j)).
  { intros i j Hi Hj Hk. destruct (Hreg j Hj Hk) as [R _].
    assert (E : forall M, meq (S i) (S j) (form o N Vn M Vn) (mul o n (adj o Y) (form o N V M Vn))).
    { intros M. unfold form, Vn. rewrite (adjM o L). rewrite !(mulA o L). reflexivity. }
    rewrite (E A i j), (E B i j) by lia. unfold mul at 1 2. rewrite <- (sum_mulr o L).
    apply sum_ext. intros l Hl. rewrite (R l Hl). ring. }
  assert (EH := form_herm o L N rs A Vn HA).
  assert (E0 : forall i j, i < rs -> j < rs -> kept ip np j -> i <> j -> form o N Vn A Vn i j = k0 o).
  { intros i j Hi Hj Hk Hn. rewrite (EP i j Hi Hj Hk). destruct (Hreg j Hj Hk) as [_ R].
    rewrite (R i Hi). unfold one. destruct (Nat.eqb_spec i j); [contradiction|]. ring. }
  assert (E0' : forall i j, i < rs -> j < rs -> kept ip np i -> i <> j -> form o N Vn A Vn i j = k0 o).
  { intros i j Hi Hj Hk Hn. rewrite <- (EH i j Hi Hj). unfold adj. rewrite E0 by auto. apply (l_conj_0 o L). }
  assert (ED : forall j, j < rs -> kept ip np j -> form o N Vn A Vn j j = vals j).
  { intros j Hj Hk. rewrite (EP j j Hj Hj Hk). destruct (Hreg j Hj Hk) as [_ R]. rewrite (R j Hj).
    unfold one. rewrite Nat.eqb_refl. ring. }
  split; [|split; [exact EP|exact E0']].
  intros i j Hj Hi. unfold rr_H. cbv zeta.
  destruct (Nat.ltb_spec i rs) as [Hir|]; [|lia].
  destruct (Nat.ltb_spec j ip) as [H1|H1].
  - destruct (Nat.eqb_spec i j) as [->|Hn]; symmetry; [apply ED|apply E0]; auto; left; exact H1.
  - destruct (Nat.ltb_spec j (ip + np)) as [H2|H2].
    + destruct (Nat.ltb_spec i ip) as [H3|H3].
      * symmetry. apply E0'; auto; [left; exact H3|lia].
      * destruct (Nat.ltb_spec i (ip + np)); [|lia].
        assert (HU := upper_meq o n H _ (form_herm o L N n A V HA) HH).
        assert (E : meq np np (compute_submatrix o np n (from 0 ip Y) H) (form o N (from 0 ip Vn) A (from 0 ip Vn))).
        { unfold compute_submatrix. rewrite HU. unfold form.
          change (from 0 ip Vn) with (mul o n V (from 0 ip Y)).
          rewrite (adjM o L). rewrite !(mulA o L). reflexivity. }
        rewrite E by lia. rewrite <- form_shift. f_equal; lia.
    + destruct (Nat.ltb_spec j rs); [|lia].
      destruct (Nat.eqb_spec i j) as [->|Hn]; symmetry; [apply ED|apply E0]; auto; right; exact H2.
Qed.

(** ** C51: Rayleigh-Ritz.  H is the projection of the new basis, the new
    coefficient vectors are its eigenvectors, and when the shift has not changed the
    kept pairs are the old ones, permuted. *)
Theorem C51_restart_RR (LK : kernels K) t (implicit changed : bool) N n rs np ip A B V Y H vals perm VtBV H' w X :
  hermitian o N A -> 
  let Vn := mul o n V Y in
  (if implicit then holds_upper n H (form o N V A V) else holds_upper rs H (form o N Vn A Vn)) ->
  ip + np <= rs ->
  (forall j, j < rs -> kept ip np j -> ritz_pairs o N n A B V Vn vals j /\ orthonormal_at o N rs B Vn j) ->
  hermitian o N B -> meq rs rs (opt o VtBV) (form o N Vn B Vn) ->
  permutes rs perm -> together ip np rs perm ->
  (forall m, m <= rs -> hegv_right o LK m /\ order_right LK m) ->
  restart_RR o LK t implicit changed n rs np ip H Y vals perm VtBV = Some (H', w, X) ->
  holds_upper rs H' (form o N Vn A Vn) /\
  eigen_of o rs (form o N Vn A Vn) (form o N Vn B Vn) w X /\
  (changed = false -> forall j, j < rs -> kept ip np (perm j) ->
     w j = vals (perm j) /\ forall i, i < rs -> X i j = one o i (perm j)).
Proof.
  intros HA Vn HH Hnp Hreg HB HG Hperm [oi [Hoi Hto]] HL Hs.
  assert (EPfacts : (forall i j, i < rs -> j < rs -> kept ip np j ->
            form o N Vn A Vn i j = kmul o (form o N Vn B Vn i j) (vals j)) /\
            (forall i j, i < rs -> j < rs -> kept ip np i -> i <> j -> form o N Vn A Vn i j = k0 o)).
  { destruct (rr_H_right N n rs np ip A B V Y (form o N V A V) vals HA) as (_ & F2 & F3); auto.
    intros i j _ _. reflexivity. }
  destruct EPfacts as [EP E0].
  assert (EH1 : holds_upper rs (if implicit then rr_H o n rs np ip H Y vals else H) (form o N Vn A Vn)).
  { destruct implicit; [|exact HH]. destruct (rr_H_right N n rs np ip A B V Y H vals HA HH Hnp Hreg) as (F1 & _). exact F1. }
  assert (EPh := form_herm o L N rs A Vn HA). assert (EGh := form_herm o L N rs B Vn HB).
  set (P := form o N Vn A Vn) in *. set (G := form o N Vn B Vn) in *.
  unfold restart_RR in Hs. cbv zeta in Hs.
  set (H1 := if implicit then rr_H o n rs np ip H Y vals else H) in *.
  destruct changed.
  { destruct (solve_H_RR o LK t rs H1 VtBV) as [[w0 X0]|] eqn:E; [|discriminate].
    cbn [bind fst snd] in Hs. injection Hs as <- <- <-. split; [exact EH1|]. split; [|discriminate].
    destruct (HL rs (le_n _)) as [h1 h2].
    destruct (solve_H_RR_right o L LK t rs H1 P VtBV w0 X0 EPh EH1 h1 h2 E) as [F1 F2].
    split; [rewrite F1; rewrite HG; reflexivity|]. unfold orthonormal_in, form in F2 |- *. rewrite <- HG. exact F2. }
  destruct Hperm as [Hp1 Hp2].
  assert (G0 : forall i j, i < rs -> j < rs -> kept ip np j -> G i j = one o i j).
  { intros i j Hi Hj Hk. destruct (Hreg j Hj Hk) as [_ R]. apply (R i Hi). }
  assert (G0' : forall i j, i < rs -> j < rs -> kept ip np i -> G i j = one o i j).
  { intros i j Hi Hj Hk. rewrite <- (EGh i j Hi Hj). unfold adj. rewrite G0 by auto.
    unfold one. rewrite Nat.eqb_sym. destruct (i =? j); [apply (conj_1 o L)|apply (l_conj_0 o L)]. }
  (** which columns of the permutation are regular *)
  assert (Hkc : forall j, j < rs -> (oi <= j < oi + np /\ perm j = ip + (j - oi)) \/ (kept oi np j /\ kept ip np (perm j))).
  { intros j Hj. destruct (Nat.lt_ge_cases j oi) as [C|C]; [right|destruct (Nat.lt_ge_cases j (oi + np)) as [D|D]; [left|right]].
    - split; [left; exact C|]. destruct (Nat.lt_ge_cases (perm j) ip) as [|C1]; [left; assumption|].
      destruct (Nat.lt_ge_cases (perm j) (ip + np)) as [C2|]; [|right; assumption].
      assert (E : perm (oi + (perm j - ip)) = perm j) by (rewrite Hto; lia). apply Hp2 in E; lia.
    - split; [lia|]. rewrite <- Hto by lia. f_equal. lia.
    - split; [right; exact D|]. destruct (Nat.lt_ge_cases (perm j) ip) as [|C1]; [left; assumption|].
      destruct (Nat.lt_ge_cases (perm j) (ip + np)) as [C2|]; [|right; assumption].
      assert (E : perm (oi + (perm j - ip)) = perm j) by (rewrite Hto; lia). apply Hp2 in E; lia. }
  set (X0 := fun i j : nat => if i =? perm j then k1 o else k0 o) in *.
  (** the regular columns *)
  assert (C1 : forall M i j, j < rs -> i < rs -> mul o rs M X0 i j = M i (perm j)).
  { intros M i j Hj Hi. unfold mul. rewrite (sum_one o L rs (perm j)).
    - unfold X0. rewrite Nat.eqb_refl. ring.
    - apply Hp1; exact Hj.
    - intros l Hl Hn. unfold X0. destruct (Nat.eqb_spec l (perm j)); [contradiction|ring]. }
  destruct ((find_index perm ip 0 rs rs =? rs) && (ip <? rs)) eqn:Efi; [discriminate|].
  destruct (Nat.eqb_spec np 0) as [Hz|Hz].
  { injection Hs as <- <- <-. split; [exact EH1|]. 
    assert (Hall : forall j, kept ip np j) by (intros j; unfold kept; lia).
    split; [split|].
    - intros i j Hi Hj. rewrite (mul_diag_r o L) by exact Hj. rewrite !C1 by assumption.
      apply EP; auto.
    - intros i j Hi Hj. unfold form. unfold mul at 1. rewrite (sum_one o L rs (perm i)).
      + rewrite C1 by auto. unfold adj, X0. rewrite Nat.eqb_refl, (conj_1 o L). rewrite G0 by auto.
        unfold one. destruct (Nat.eqb_spec i j) as [->|Hn].
        * rewrite Nat.eqb_refl. ring.
        * destruct (Nat.eqb_spec (perm i) (perm j)) as [E|]; [apply Hp2 in E; auto; contradiction|ring].
      + auto.
      + intros l Hl Hn. unfold adj, X0. destruct (Nat.eqb_spec l (perm i)); [contradiction|].
        rewrite (l_conj_0 o L). ring.
    - intros _ j Hj _. split; [reflexivity|]. intros i Hi. reflexivity. }
  assert (Eoi : find_index perm ip 0 rs rs = oi).
  { destruct (find_index_spec perm ip rs rs 0 eq_refl) as [[_ F]|[F1 F2]].
    - exfalso. apply (F oi); [lia|]. specialize (Hto 0). rewrite !Nat.add_0_r in Hto. apply Hto. lia.
    - apply Hp2; [lia|lia|]. rewrite F2. specialize (Hto 0). rewrite !Nat.add_0_r in Hto. symmetry. apply Hto. lia. }
  rewrite Eoi in Hs.
  destruct (solve_H_RR o LK t np (from ip ip H1) (sub_block ip VtBV)) as [[ws xs]|] eqn:E; [|discriminate].
  cbn [bind fst snd] in Hs. injection Hs as <- <- <-. split; [exact EH1|].
  assert (Hsmall : eigen_of o np (from ip ip P) (from ip ip G) ws xs).
  { destruct (HL np ltac:(lia)) as [h1 h2].
    destruct (solve_H_RR_right o L LK t np (from ip ip H1) (from ip ip P) (sub_block ip VtBV) ws xs) as [F1 F2]; auto.
    - intros i j Hi Hj. unfold adj, from. apply (EPh (ip + i) (ip + j)); lia.
    - intros i j Hi Hj. unfold from. apply EH1; lia.
    - assert (EG : meq np np (opt o (sub_block ip VtBV)) (from ip ip G)).
      { intros i j Hi Hj. unfold from. rewrite <- (HG (ip + i) (ip + j)) by lia.
        destruct VtBV as [g|]; cbn [sub_block option_map opt]; [reflexivity|].
        unfold one. destruct (Nat.eqb_spec i j) as [->|]; [rewrite Nat.eqb_refl; reflexivity|].
        destruct (Nat.eqb_spec (ip + i) (ip + j)); [lia|reflexivity]. }
      split; [rewrite F1, EG; reflexivity|]. unfold orthonormal_in, form in F2 |- *. rewrite <- EG. exact F2. }
  destruct Hsmall as [S1 S2].
  match goal with |- context[eigen_of o rs P G ?W ?XX] => set (w' := W); set (X' := XX) end.
  (** columns of X' *)
  assert (XR : forall l j, j < rs -> kept oi np j -> X' l j = X0 l j).
  { intros l j Hj Hk. unfold X'. rewrite (proj2 (out_range oi (oi + np) j)) by (unfold kept in Hk; lia).
    rewrite andb_false_r. reflexivity. }
  assert (XI : forall l j, l < rs -> j < np -> X' l (oi + j) = if (ip <=? l) && (l <? ip + np) then xs (l - ip) j else k0 o).
  { intros l j Hl Hj. unfold X'. rewrite (proj2 (in_range oi (oi + np) (oi + j))) by lia. rewrite andb_true_r.
    destruct ((ip <=? l) && (l <? ip + np)) eqn:Ei; [f_equal; lia|].
    apply out_range in Ei. rewrite Hto by exact Hj. destruct (Nat.eqb_spec l (ip + j)); [lia|reflexivity]. }
  assert (MR : forall M i j, i < rs -> j < rs -> kept oi np j -> mul o rs M X' i j = M i (perm j)).
  { intros M i j Hi Hj Hk. rewrite <- (C1 M i j Hj Hi). unfold mul. apply sum_ext. intros l Hl. rewrite XR by auto. reflexivity. }
  assert (MI : forall M i j, i < rs -> j < np -> mul o rs M X' i (oi + j) = sum o np (fun l => kmul o (M i (ip + l)) (xs l j))).
  { intros M i j Hi Hj. unfold mul. rewrite (sum_window o L rs ip np).
    - apply sum_ext. intros l Hl. rewrite XI by lia. rewrite (proj2 (in_range ip (ip + np) (ip + l))) by lia.
      replace (ip + l - ip) with l by lia. reflexivity.
    - exact Hnp.
    - intros l Hl Ho. rewrite XI by lia. rewrite (proj2 (out_range ip (ip + np) l)) by lia. ring. }
  assert (Hsplit : forall j, j < rs -> (exists t, t < np /\ j = oi + t) \/ (kept oi np j /\ kept ip np (perm j))).
  { intros j Hj. destruct (Hkc j Hj) as [[A1 A2]|A1]; [left; exists (j - oi); lia|right; exact A1]. }
  assert (Rsplit : forall i, i < rs -> (exists t, t < np /\ i = ip + t) \/ kept ip np i).
  { intros i Hi. unfold kept. destruct (Nat.lt_ge_cases i ip); [auto|].
    destruct (Nat.lt_ge_cases i (ip + np)); [left; exists (i - ip); lia|auto]. }
  assert (WI : forall j, j < np -> w' (oi + j) = ws j).
  { intros j Hj. unfold w'. rewrite (proj2 (in_range oi (oi + np) (oi + j))) by lia. f_equal. lia. }
  assert (WR : forall j, j < rs -> kept oi np j -> w' j = vals (perm j)).
  { intros j Hj Hk. unfold w'. rewrite (proj2 (out_range oi (oi + np) j)) by (unfold kept in Hk; lia). reflexivity. }
  assert (Gz : forall i l, i < rs -> kept ip np i -> l < np -> G i (ip + l) = k0 o).
  { intros i l Hi Hk Hl. rewrite G0' by (auto; lia). unfold one. destruct (Nat.eqb_spec i (ip + l)); [unfold kept in Hk; lia|reflexivity]. }
  split; [split|].
  - intros i j Hi Hj. rewrite (mul_diag_r o L) by exact Hj.
    destruct (Hsplit j Hj) as [(t1 & Ht & ->)|[K1 K2]].
    + rewrite !MI by assumption. rewrite WI by exact Ht.
      destruct (Rsplit i Hi) as [(r & Hr & ->)|Ki].
      * assert (S1' := S1 r t1 Hr Ht). rewrite (mul_diag_r o L) in S1' by exact Ht. exact S1'.
      * rewrite (sum_zero o L np). 2:{ intros l Hl. rewrite E0; auto; [ring|lia|unfold kept in Ki; lia]. }
        rewrite (sum_zero o L np). 2:{ intros l Hl. rewrite Gz by auto. ring. }
        ring.
    + rewrite !MR by assumption. rewrite WR by assumption. apply EP; auto.
  - intros i j Hi Hj. unfold form. destruct (Hsplit j Hj) as [(t1 & Ht & ->)|[K1 K2]].
    + unfold mul at 1. rewrite (sum_window o L rs ip np).
      2: exact Hnp.
      2:{ intros l Hl Ho. rewrite MI by auto. rewrite (sum_zero o L np); [ring|]. intros k Hk. rewrite Gz by auto; ring. }
      destruct (Hsplit i Hi) as [(s1 & Hs & ->)|[K1 K2]].
      * transitivity (one o s1 t1).
        2:{ unfold one. destruct (Nat.eqb_spec s1 t1) as [->|]; [rewrite Nat.eqb_refl; reflexivity|].
            destruct (Nat.eqb_spec (oi + s1) (oi + t1)); [lia|reflexivity]. }
        rewrite <- (S2 s1 t1 Hs Ht). unfold form, mul at 2. apply sum_ext. intros l Hl.
        rewrite MI by (auto; lia). unfold adj. rewrite XI by lia.
        rewrite (proj2 (in_range ip (ip + np) (ip + l))) by lia. replace (ip + l - ip) with l by lia. reflexivity.
      * rewrite (sum_zero o L np).
        -- unfold one. destruct (Nat.eqb_spec i (oi + t1)); [unfold kept in K1; lia|reflexivity].
        -- intros l Hl. unfold adj. rewrite XR by auto. unfold X0.
           destruct (Nat.eqb_spec (ip + l) (perm i)); [unfold kept in K2; lia|]. rewrite (l_conj_0 o L). ring.
    + unfold mul at 1. rewrite (sum_one o L rs (perm j)).
      * rewrite MR by auto. rewrite G0 by auto. unfold one at 1. rewrite Nat.eqb_refl. unfold adj.
        destruct (Hsplit i Hi) as [(s1 & Hs & ->)|[K3 K4]].
        -- rewrite XI by auto. rewrite (proj2 (out_range ip (ip + np) (perm j))) by (unfold kept in K2; lia).
           rewrite (l_conj_0 o L). unfold one. destruct (Nat.eqb_spec (oi + s1) j); [unfold kept in K1; lia|ring].
        -- rewrite XR by auto. unfold X0, one. destruct (Nat.eqb_spec i j) as [->|Hn].
           ++ rewrite Nat.eqb_refl, (conj_1 o L). ring.
           ++ destruct (Nat.eqb_spec (perm j) (perm i)) as [E1|]; [apply Hp2 in E1; auto; congruence|].
              rewrite (l_conj_0 o L). ring.
      * auto.
      * intros l Hl Hn. rewrite MR by auto. rewrite G0 by auto. unfold one.
        destruct (Nat.eqb_spec l (perm j)); [contradiction|ring].
  - intros _ j Hj Hk. destruct (Hsplit j Hj) as [(t1 & Ht & ->)|[K1 K2]].
    + rewrite Hto in Hk by exact Ht. unfold kept in Hk. lia.
    + split; [apply WR; auto|]. intros i Hi. exact (XR i j Hj K1).
Qed.

(** ** C51: the factorization rebuilt with a new shift. *)
Theorem C51_rebuilt_factorization (f : ortho K) N rs A V BV W Q R tau Q' R' :
  meq N rs W (mul o N A V) -> ortho_right o N f ->
  rebuild o f N rs BV W Q R tau = Some (Q', R') ->
  factored o N rs A BV V tau Q' R' /\ gram o N rs Q' (one o).
Proof.
  intros HW Hf Hb. unfold rebuild in Hb.
  destruct (update_Q o f N BV W Q R tau 0 rs 0) as [[[Q2 R2] nQ]|] eqn:E; [|discriminate]. cbn [bind] in Hb.
  destruct (Nat.eqb_spec nQ rs) as [->|]; [|discriminate]. injection Hb as <- <-.
  destruct (Nat.eq_dec rs 0) as [->|Hr].
  - split; intros i j Hi Hj; lia.
  - destruct (C50_update_Q o L f N A V BV W Q R tau 0 rs Q2 R2 rs) as (F1 & F2 & _); auto; try lia.
    + intros i j Hi Hj. lia.
    + intros i j Hi Hj. lia.
Qed.

Lemma submatrix_right N n rs A V Y H : hermitian o N A -> holds_upper n H (form o N V A V) ->
  meq rs rs (compute_submatrix o rs n Y H) (form o N (mul o n V Y) A (mul o n V Y)).
Proof.
  intros HA HH. assert (HU := upper_meq o n H _ (form_herm o L N n A V HA) HH).
  unfold compute_submatrix. rewrite HU. unfold form. rewrite (adjM o L). rewrite !(mulA o L). reflexivity.
Qed.

(** ** C51: harmonic extraction.  Everything that the extraction (C50_harmonic) needs
    holds again for the new basis and the new shift, and its pairs are computed from it. *)
Theorem C51_restart_harmonic (LK : kernels K) (f : ortho K) t (implicit : bool) N n rs A V Y H W Q R tau VtBV sv H' Q' R' QtV e :
  let Vn := mul o n V Y in
  hermitian o N A -> kconj o tau = tau ->
  (if implicit then holds_upper n H (form o N V A V) else holds_upper rs H (form o N Vn A Vn)) ->
  meq N rs W (mul o N A Vn) -> gram o N rs Vn (opt o VtBV) -> ortho_right o N f ->
  hegv_right o LK rs -> order_right LK rs -> lsolve_right o LK rs -> bortho_right o LK rs VtBV ->
  restart_harmonic o LK f t implicit N n rs H Y Vn Vn W Q R tau None VtBV sv = Some (H', Q', R', QtV, e) ->
  holds_upper rs H' (form o N Vn A Vn) /\
  factored o N rs A Vn Vn tau Q' R' /\ gram o N rs Q' (one o) /\ meq rs rs QtV (mul o N (adj o Q') Vn) /\
  let X := mul o rs Vn (hVecs e) in
  let D := shifted o N A Vn tau in
  gram o N rs X (one o) /\ (forall i, i < rs -> hVals e i = form o N X A X i i) /\
  exists Z T mu,
    upper_triangular o rs T /\ meq rs rs Z (mul o rs (hVecs e) T) /\
    meq rs rs (mul o N (adj o D) (mul o rs Vn Z)) (mul o rs (mul o N (adj o D) (mul o rs D Z)) (diag o mu)) /\
    gram o N rs (mul o rs D Z) (one o).
Proof.
  intros Vn HA Ht HH HW HV Hf K1 K2 K3 K4 Hs. unfold restart_harmonic in Hs. cbv zeta in Hs.
  set (H1 := if implicit then compute_submatrix o rs n Y H else H) in *.
  destruct (rebuild o f N rs Vn W Q R tau) as [[Q2 R2]|] eqn:E; [|discriminate]. cbn [bind] in Hs.
  destruct (solve_H_Harm o LK t rs H1 (mul o N (adj o Q2) Vn) R2 None VtBV sv) as [e2|] eqn:E2; [|discriminate].
  cbn [bind] in Hs. injection Hs as <- <- <- <- <-.
  destruct (C51_rebuilt_factorization f N rs A Vn Vn W Q R tau Q2 R2 HW Hf E) as [F1 F2].
  assert (HH1 : holds_upper rs H1 (form o N Vn A Vn)).
  { unfold H1. destruct implicit; [|exact HH]. intros i j Hj Hi. apply (submatrix_right N n rs A V Y H HA HH); lia. }
  split; [exact HH1|]. split; [exact F1|]. split; [exact F2|]. split; [reflexivity|].
  destruct (C50_harmonic o L LK t N rs A Vn H1 tau Q2 R2 (mul o N (adj o Q2) Vn) None VtBV sv e2 HA Ht HH1 HV F2 F1
    (meq_refl _ _ _) K1 K2 K3 K4 E2) as (P1 & P2 & Z & T & mu & P3 & P4 & P5 & P6 & _).
  cbv zeta. split; [exact P1|]. split; [exact P2|]. exists Z, T, mu. auto.
Qed.
End Proofs.
