(** The MATLAB function primme_svds (Matlab/primme_svds.m, here S) and the parts of
    Matlab/primme_mex.cpp (here M) that it uses, on the CPU; products and left divisions of MATLAB
    are taken to be exact, and history, profiles, statistics and options by name are not modelled. *)
From Coq Require Import Ascii String List Arith ZArith Bool Lia.
From Verif Require Import Base SvdsModel MatModel.
Import ListNotations.

(** ** Products *)
Section Products.
Context {K : Type}.
Variables (kzero : K) (kadd kmul : K -> K -> K) (cj : K -> K).

(** M 1802-1852: as the product of primme_eigs, with vectors of [mx] entries made into ones of
    [my]. *)
Definition matvec2 (cplx : bool) (f : @arr K -> option (@arr K)) (mx my bsz : nat) (x : list K) (ldx : nat)
  (y : list K) (ldy : nat) : res (list K) :=
  if bsz =? 0 then Ok y
  else
    rbind (create_mxArray cplx x mx bsz ldx) (fun ax =>
    match f ax with
    | None => Err
    | Some r =>
      rbind (copy_mxArray cplx my bsz r) (fun cs =>
      match write_cols y 0 ldy cs with Some y' => Ok y' | None => Bad end)
    end).

(** The conjugate transpose (MATLAB). *)
Definition ctranspose (a : @matrix K) : @matrix K :=
  Matrix (m_cols a) (m_rows a) (m_cplx a) (fun i j => cj (m_at a j i)).

(** S 707-713 *)
Definition matvecsvds (a : @matrix K) (x : @arr K) (mode : string) : option (@arr K) :=
  match String.get 0 mode with
  | Some "n"%char => times kzero kadd kmul a x
  | Some _ => times kzero kadd kmul (ctranspose a) x
  | None => None
  end.

(** M 1750-1765: [transpose] is what the solver asks for; the sizes and the word. *)
Definition svds_product (cplx : bool) (f : @arr K -> string -> option (@arr K)) (m n : nat) (transpose : bool)
  (bsz : nat) (x : list K) (ldx : nat) (y : list K) (ldy : nat) : res (list K) :=
  if transpose then matvec2 cplx (fun a => f a "transp"%string) m n bsz x ldx y ldy
  else matvec2 cplx (fun a => f a "notransp"%string) n m bsz x ldx y ldy.
End Products.

(** ** Targets: S 228-249.  A number is given by whether it is zero, positive or neither; a target
    is a word or the numbers. *)
Inductive sign := Zero | Positive | Negative.
Definition svds_target {V} (sg : V -> sign) (t : option (string + list V)) : res (string * option (list V)) :=
  match t with
  | None => Ok ("primme_svds_largest"%string, None)
  | Some (inl w) =>
      match String.get 0 w with
      | Some "L"%char => Ok ("primme_svds_largest"%string, None)
      | Some "S"%char => Ok ("primme_svds_smallest"%string, None)
      | _ => Err
      end
  | Some (inr l) =>
      if forallb (fun v => match sg v with Zero => true | _ => false end) l
      then Ok ("primme_svds_smallest"%string, None)
      else if forallb (fun v => match sg v with Negative => false | _ => true end) l
      then Ok ("primme_svds_closest_abs"%string, Some l)
      else Err
  end.

(** ** Preconditioners, for one vector: all the columns of a block are treated alike. *)
Inductive pmode := AHA | AAH | Aug.

Section Prec.
Context {K M : Type}.
Variables (solve : M -> list K -> option (list K)) (adj : M -> M) (nrows : M -> nat).

(** The left division (MATLAB) raises unless the rows agree; matrices of a single entry, which divide
    anything, are left out. *)
Definition ldiv (p : M) (x : list K) : option (list K) := if nrows p =? length x then solve p x else None.
(** x(1:k), which raises beyond the end, and x(k+1:end) *)
Definition head_of (k : nat) (x : list K) : option (list K) := if k <=? length x then Some (firstn k x) else None.
Definition tail_of (k : nat) (x : list K) : list K := skipn k x.

(** S 715-723 *)
Definition prec_mat (p : M) (mode : pmode) (x : list K) : option (list K) :=
  match mode with
  | AHA => y <- ldiv (adj p) x ; ldiv p y
  | AAH => y <- ldiv p x ; ldiv (adj p) y
  | Aug => a <- ldiv p (tail_of (nrows p) x) ; h <- head_of (nrows p) x ; b <- ldiv (adj p) h ; Some (a ++ b)
  end.

(** S 725-733; [f true] is 'transp'. *)
Definition prec_fun (f : bool -> list K -> option (list K)) (m : nat) (mode : pmode) (x : list K) : option (list K) :=
  match mode with
  | AHA => y <- f true x ; f false y
  | AAH => y <- f false x ; f true y
  | Aug => a <- f false (tail_of m x) ; h <- head_of m x ; b <- f true h ; Some (a ++ b)
  end.

(** S 735-753 *)
Definition prec_two (p1 : option M) (p2 : M) (mode : pmode) (x : list K) : option (list K) :=
  match p1 with
  | Some p1 =>
    match mode with
    | AHA => a <- ldiv (adj p2) x ; b <- ldiv (adj p1) a ; c <- ldiv p1 b ; ldiv p2 c
    | AAH => a <- ldiv p1 x ; b <- ldiv p2 a ; c <- ldiv (adj p2) b ; ldiv (adj p1) c
    | Aug => a <- ldiv p1 (tail_of (nrows p1) x) ; a <- ldiv p2 a ;
             h <- head_of (nrows p1) x ; b <- ldiv (adj p2) h ; b <- ldiv (adj p1) b ; Some (a ++ b)
    end
  | None =>
    match mode with
    | AHA => y <- ldiv (adj p2) x ; ldiv p2 y
    | AAH => y <- ldiv p2 x ; ldiv (adj p2) y
    | Aug => Some x
    end
  end.

(** S 755-766; the fields that are there, matrices or functions. *)
Definition prec_struct (fields : pmode -> option (M + (list K -> option (list K)))) (mode : pmode) (x : list K)
  : option (list K) :=
  match fields mode with Some (inl p) => ldiv p x | Some (inr f) => f x | None => Some x end.

Inductive pgiven :=
  | PEmpty
  | PMat (p : M)
  | PFun (f : bool -> list K -> option (list K))
  | PStruct (fields : pmode -> option (M + (list K -> option (list K)))).

(** S 264-288: the arguments after the options, with the second one for two factors; functions
    and structs are not accepted then. *)
Definition svds_prec (m : nat) (p : option pgiven) (p2 : option pgiven)
  : res (option (pmode -> list K -> option (list K))) :=
  match p, p2 with
  | None, _ => Ok None
  | Some p, (None | Some PEmpty) =>
      Ok (match p with
          | PEmpty => None
          | PMat a => Some (prec_mat a)
          | PFun f => Some (prec_fun f m)
          | PStruct s => Some (prec_struct s)
          end)
  | Some PEmpty, Some (PMat b) => Ok (Some (prec_two None b))
  | Some (PMat a), Some (PMat b) => Ok (Some (prec_two (Some a) b))
  | _, _ => Err
  end.

(** S 329-339: the trial before the solver is called, with vectors of ones. *)
Definition trial (one : K) (m n : nat) (f : option (pmode -> list K -> option (list K))) : res unit :=
  match f with
  | None => Ok tt
  | Some f =>
    match f AHA (repeat one n), f AAH (repeat one m), f Aug (repeat one (m + n)) with
    | Some _, Some _, Some _ => Ok tt
    | _, _, _ => Err
    end
  end.

(** ** Constraints and guesses: S 466-502.  A block is a list of columns, [] the empty matrix.
    [apply true] multiplies by the conjugate transpose; it raises for the empty matrix. *)
Variable apply : bool -> list (list K) -> option (list (list K)).
Definition block := list (list K).
Definition rows_are (k : nat) (b : block) : bool := forallb (fun c => length c =? k) b.
Definition dims_ok (m n : nat) (l r : block) : bool :=
  rows_are m l && rows_are n r && (length l =? length r)
  && negb (match l with [] => true | _ => false end).
Definition checked (m n : nat) (l r : block) : option (block * block) :=
  if dims_ok m n l r then Some (l, r) else None.

Definition ortho_blocks (m n : nat) (oc : option (block * block)) : option (block * block) :=
  match oc with
  | None => Some ([], [])
  | Some ([], []) => None
  | Some ([], r) => l <- apply false r ; checked m n l r
  | Some (l, []) => r <- apply true l ; checked m n l r
  | Some (l, r) => checked m n l r
  end.

Definition guess_blocks (m n : nat) (init : block * block) (u0 v0 : option block) : option (block * block) :=
  match u0, v0 with
  | None, None => Some init
  | _, _ =>
    let u := match u0 with Some u => u | None => [] end in
    let v := match v0 with Some v => v | None => [] end in
    uv <- match u with
          | [] => l <- apply false v ; Some (l, v)
          | _ => match snd init with
                 | [] => r <- apply true u ; Some (u, r)
                 | _ => Some (u, v)
                 end
          end ;
    uv <- checked m n (fst uv) (snd uv) ;
    Some (fst init ++ fst uv, snd init ++ snd uv)
  end.
Definition all_blocks (m n : nat) (oc : option (block * block)) (u0 v0 : option block) : option (block * block) :=
  init <- ortho_blocks m n oc ; guess_blocks m n init u0 v0.

(** M 2022-2046: the array for the solver: the left vectors, then the right ones, and room. *)
Definition start_svecs (junk : K) (m n numSvals oc ini : nat) (b : block * block) : option (list K) :=
  let mem := repeat junk ((oc + Nat.max ini numSvals) * (m + n)) in
  if 0 <? oc + ini then
    mem <- write_cols mem 0 m (fst b) ;
    write_cols mem (m * (oc + ini)) n (snd b)
  else Some mem.

(** ** Results: M 2107-2122, the vectors read from the array that the solver leaves. *)
Definition svecs_out (m n oc ini : nat) (mem : list K) : option (block * block) :=
  l <- read_cols mem (m * oc) m m ini ;
  r <- read_cols mem (m * (oc + ini) + n * oc) n n ini ;
  Some (l, r).
End Prec.

Section Results.
Context {E V : Type}.
Variable ge : E -> E -> bool.

(** S 564: mod of MATLAB has the sign of its second argument, as here. *)
Definition limit_met (ret : Z) : bool := (ret mod (-100) =? -3)%Z.

(** What the solver leaves in the first initSize places, and its code. *)
Record svds_solved := SvdsSolved { v_ret : Z; v_svals : list E; v_norms : list E; v_left : list V; v_right : list V; v_init : nat }.

(** M 2087-2105 and S 564-593: left vectors, values, right vectors, norms, and whether a warning
    was given. *)
Definition svds_result (target : string) (s : svds_solved) : res (list V * list E * list V * list E * bool) :=
  let sv := firstn (v_init s) (v_svals s) in
  let no := firstn (v_init s) (v_norms s) in
  if negb (limit_met (v_ret s)) && negb (v_ret s =? 0)%Z then Err
  else if String.eqb target "primme_svds_smallest" || String.eqb target "primme_svds_closest_abs" then
    let l := sort_descend ge sv in
    rbind (pick (map snd l) (v_left s)) (fun u =>
    rbind (pick (map snd l) (v_right s)) (fun v =>
    Ok (u, map fst l, v, no, limit_met (v_ret s))))
  else Ok (v_left s, sv, v_right s, no, limit_met (v_ret s)).
End Results.
