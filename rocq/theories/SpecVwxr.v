(** What the update of vectors should compute, in terms of the memory before it. *)
From Coq Require Import List Arith Bool.
From Verif Require Import Base ProjModel SpecProj MatAlg VwxrModel.
Import ListNotations.

Section SpecVwxr.
Context {K : Type} (o : scal K).

(** Element (row r, column j) of A*h, where A are the nV columns from the pointer on. *)
Definition rotated (mem : @memory K) (A : ptr) (nV : nat) (h : nat -> nat -> K) (j r : nat) : K :=
  sum o nV (fun l => kmul o (mem (Datatypes.fst A) (Datatypes.snd A + l) r) (h l j)).
(** Element of W*h - B*V*h*diag(values); without B the columns of V serve. *)
Definition ptr_or (a : option ptr) (d : ptr) : ptr := match a with Some x => x | None => d end.
Definition residual (mem : @memory K) (J : @job K) (j r : nat) : K :=
  ksub o (rotated mem (ptr_or (j_W J) (j_V J)) (j_nV J) (j_h J) j r)
         (kmul o (j_vals J j) (rotated mem (ptr_or (j_BV J) (j_V J)) (j_nV J) (j_h J) j r)).

(** The output [x] holds [val] (by column of h and row) in its columns, rows below mV. *)
Definition holds (mV : nat) (mem : @memory K) (x : out) (val : nat -> nat -> K) : Prop :=
  forall a c j r, o_ptr x = Some (a, c) -> o_b x + j < o_e x -> r < mV -> mem a (c + j) r = val (o_b x + j) r.

(** Inner product of two distributed columns. *)
Definition inner (np : nat) (mV : nat -> nat) (x y : nat -> nat -> K) : K :=
  sum o np (fun p => sum o (mV p) (fun r => kmul o (kconj o (x p r)) (y p r))).

(** The columns [x] writes and the nV columns from A on have none in common. *)
Definition apart (x : out) (A : ptr) (nV : nat) : Prop :=
  forall c, covers x (Datatypes.fst A) (Datatypes.snd A + c) = true -> nV <= c.
Definition disjoint (x y : out) : Prop := forall a c, covers x a c = true -> covers y a c = false.

Definition outputs (J : @job K) : list out :=
  [j_x0 J; j_x1 J; j_x2 J; j_wo J; j_bx0 J; j_bx1 J; j_bx2 J; j_r J].

(** What the callers respect: the outputs do not overlap each other; those of V*h
    do not overlap W and B*V, that of W*h does not overlap B*V (any of them may be
    over V, that of W*h over W, and the last ones over anything); W is given when
    needed; and without B*V no columns of it are asked for. *)
Record layout (J : @job K) : Prop := Layout {
  lay_disjoint : ForallOrdPairs disjoint (outputs J);
  lay_W : forall x W, In x [j_x0 J; j_x1 J; j_x2 J] -> j_W J = Some W -> apart x W (j_nV J);
  lay_BV : forall x BV, In x [j_x0 J; j_x1 J; j_x2 J; j_wo J] -> j_BV J = Some BV -> apart x BV (j_nV J);
  lay_needW : asked (j_wo J) = true \/ asked (j_r J) = true \/ nasked (j_rn J) = true \/ 0 < size (j_H J) ->
              j_W J <> None;
  lay_noBV : j_BV J = None -> asked (j_bx0 J) = false /\ asked (j_bx1 J) = false /\ asked (j_bx2 J) = false }.
End SpecVwxr.
