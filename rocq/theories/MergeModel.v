(** Model of mergeSort, src/eigs/correction.c 639-697.

    The indices eval and ritzVal are represented by the not yet merged
    suffixes of the two arrays (they only ever advance by one); Ritz values
    are paired with their flags.  [m] counts the iterations left
    (numLocked + basisSize - count).  An entry of sortedRitzVals that no
    branch writes (possible with NaN) is [None] in the output list; a read
    past the end of ritzVals makes the whole result [None]. *)
From Verif Require Import Base Values.
From Coq Require Import List Arith Bool.
Import ListNotations.

Section Merge.
Context {V : Type} (o : vops V).

(** Lines 668-672 / 686-689: "a goes before b". *)
Definition before (t : target) (a b : V) : bool :=
  match t with
  | largest => vleb o b a
  | smallest => vleb o a b
  | _ => false
  end.

Fixpoint merge_loop (m : nat) (t : target) (lk : list V) (rz : list (V * flag))
         (room count : nat) : option (list (option V) * list nat) :=
  match m with
  | 0 => Some ([], [])
  | S m' =>
      let take_ritz :=
        match rz with
        | [] => None
        | (r, f) :: rz' =>
            if (0 <? room) && is_unconverged f then
              q <- merge_loop m' t lk rz' (room - 1) (S count);
              Some (Some r :: fst q, count :: snd q)
            else
              q <- merge_loop m' t lk rz' room (S count);
              Some (Some r :: fst q, snd q)
        end in
      match lk with
      | [] => take_ritz
      | e :: lk' =>
          if match rz with [] => false | (r, _) :: _ => before t r e end
          then take_ritz
          else if match rz with [] => true | (r, _) :: _ => before t e r end
          then q <- merge_loop m' t lk' rz room (S count);
               Some (Some e :: fst q, snd q)
          else q <- merge_loop m' t lk rz room (S count);
               Some (None :: fst q, snd q)
      end
  end.

Definition mergeSort (t : target) (locked : list V) (ritz : list (V * flag))
           (blockSize : nat) : option (list (option V) * list nat) :=
  merge_loop (length locked + length ritz) t locked ritz blockSize 0.

End Merge.
