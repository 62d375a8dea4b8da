(** What orthogonalisation means, independently of the model: the laws of exact
    arithmetic, the B-inner product, orthonormal families and linear
    combinations. *)
From Coq Require Import List Arith Bool Ring_theory.
From Verif Require Import Base OrthoModel.
Import ListNotations.

(** The inner product the caller asked for: u'*B*w, or u'*w without B. *)
Definition bip (sp : space) (u w : X sp) : K sp :=
  ip sp u (match bapp sp with Some f => f w | None => w end).

Definition norm (sp : space) (u : X sp) : K sp := ksqrt sp (kre sp (bip sp u u)).

(** Exact arithmetic: the scalars are a field with a conjugation, the vectors a
    module over them, u'*B*w is linear in w and Hermitian, the square root of a
    squared norm is exact and real, and the reciprocal of zero is not finite. *)
Record exact (sp : space) : Prop := Exact {
  ex_ring : ring_theory (k0 sp) (k1 sp) (kadd sp) (kmul sp) (ksub sp) (kopp sp) eq;
  ex_inv : forall a, a <> k0 sp -> kmul sp a (kinv sp a) = k1 sp;
  ex_conj1 : kconj sp (k1 sp) = k1 sp;
  ex_conj0 : kconj sp (k0 sp) = k0 sp;
  ex_conjm : forall a b, kconj sp (kmul sp a b) = kmul sp (kconj sp a) (kconj sp b);
  ex_addc : forall x y, xadd sp x y = xadd sp y x;
  ex_adda : forall x y z, xadd sp x (xadd sp y z) = xadd sp (xadd sp x y) z;
  ex_add0 : forall x, xadd sp x (x0 sp) = x;
  ex_scal0 : forall x, xscal sp (k0 sp) x = x0 sp;
  ex_scal1 : forall x, xscal sp (k1 sp) x = x;
  ex_scala : forall a b x, xscal sp (kadd sp a b) x = xadd sp (xscal sp a x) (xscal sp b x);
  ex_scalm : forall a b x, xscal sp (kmul sp a b) x = xscal sp a (xscal sp b x);
  ex_ipa : forall u x y, bip sp u (xadd sp x y) = kadd sp (bip sp u x) (bip sp u y);
  ex_ips : forall u c x, bip sp u (xscal sp c x) = kmul sp c (bip sp u x);
  ex_herm : forall u w, bip sp w u = kconj sp (bip sp u w);
  ex_norm : forall u, kmul sp (norm sp u) (norm sp u) = bip sp u u;
  ex_real : forall u, kconj sp (norm sp u) = norm sp u;
  ex_fin : forall u, kfin sp (kinv sp (norm sp u)) = true -> norm sp u <> k0 sp
}.

Definition orthonormal (sp : space) (us : list (X sp)) : Prop :=
  forall i j x y, nth_error us i = Some x -> nth_error us j = Some y ->
    bip sp x y = if i =? j then k1 sp else k0 sp.

(** c_0 u_0 + c_1 u_1 + ... *)
Fixpoint lincomb (sp : space) (us : list (X sp)) (cs : list (K sp)) : X sp :=
  match us, cs with
  | u :: us', c :: cs' => xadd sp (xscal sp c u) (lincomb sp us' cs')
  | _, _ => x0 sp
  end.

(** The comparisons of exact arithmetic: norms are finite, only zero has an
    infinite reciprocal, and a nonzero norm is larger than eps and sqrt(2)/2 times
    itself. *)
Record ordered (sp : space) : Prop := Ordered {
  od_fin : forall u, kfin sp (norm sp u) = true;
  od_inv : forall u, norm sp u <> k0 sp -> kfin sp (kinv sp (norm sp u)) = true;
  od_eps : forall u, norm sp u <> k0 sp -> kle sp (norm sp u) (kmul sp (keps sp) (norm sp u)) = false;
  od_tol : forall u, norm sp u <> k0 sp -> kle sp (norm sp u) (kmul sp (ktol sp) (norm sp u)) = false;
  od_zero : forall u, kle sp (k0 sp) (kmul sp (keps sp) (norm sp u)) = true
}.

(** [x] is numerically dependent on the family [us]: what remains of it outside
    their span is not larger than eps times itself. *)
Definition dependent (sp : space) (us : list (X sp)) (x : X sp) : Prop :=
  exists w cs, length cs = length us /\ x = xadd sp w (lincomb sp us cs) /\
    (forall u, In u us -> bip sp u w = k0 sp) /\
    kle sp (norm sp w) (kmul sp (keps sp) (norm sp x)) = true.
