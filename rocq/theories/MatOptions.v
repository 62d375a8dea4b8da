(** Options given by name to the MATLAB functions: Matlab/primme_eigs.m (E) and primme_svds.m (S), and
    the labels that Matlab/primme_mex.cpp accepts.  The options that E and S take out themselves
    (isreal, display, v0 and the like) are taken to have been removed already. *)
From Coq Require Import Bool String List ZArith.
From Verif Require Import MatModel MembersModel SvdsMembersModel.
Import ListNotations.
Local Open Scope string_scope.

Section Options.
Context {V : Type}.

(** A value of MATLAB: a struct, with its fields in order, or anything else. *)
Inductive value := Leaf (v : V) | Struct (fs : list (string * value)).
Definition fields := list (string * value).

(** s.(l), rmfield(s, l) and s.(l) = v *)
Definition field (l : string) (fs : fields) : option value := lookup l fs.
Definition rmfield (l : string) (fs : fields) : fields := filter (fun f => negb (String.eqb (fst f) l)) fs.
Fixpoint setfield (l : string) (v : value) (fs : fields) : fields :=
  match fs with
  | [] => [(l, v)]
  | (k, w) :: t => if String.eqb k l then (k, v) :: t else (k, w) :: setfield l v t
  end.

(** E 500-505, S 394-399 and S 429-434: one change after another. *)
Definition change (fs : fields) (c : string * string) : fields :=
  match field (fst c) fs with Some v => rmfield (fst c) (setfield (snd c) v fs) | None => fs end.
Definition changed (cs : list (string * string)) (fs : fields) : fields := fold_left change cs fs.

(** S 411-424 *)
Definition moved : list (string * string) :=
  [("projection", "projection_projection"); ("scheme", "restarting_scheme");
   ("maxPrevRetain", "restarting_maxPrevRetain"); ("precondition", "correction_precondition");
   ("robustShifts", "correction_robustShifts"); ("maxInnerIterations", "correction_maxInnerIterations");
   ("LeftQ", "correction_projectors_LeftQ"); ("LeftX", "correction_projectors_LeftX");
   ("RightQ", "correction_projectors_RightQ"); ("RightX", "correction_projectors_RightX");
   ("SkewQ", "correction_projectors_SkewQ"); ("SkewX", "correction_projectors_SkewX");
   ("convTest", "correction_convTest"); ("relTolBase", "correction_relTolBase")].
(** E 484-498 *)
Definition changes_eigs : list (string * string) :=
  [("tol", "eps"); ("maxit", "maxOuterIterations"); ("p", "maxBasisSize")] ++ moved.
(** S 393 *)
Definition changes_svds : list (string * string) := [("tol", "eps"); ("maxit", "maxMatvecs"); ("p", "maxBasisSize")].

(** E 752-785: the members set, in order, for one field. *)
Fixpoint set_field (prefix label : string) (v : value) : list (string * V) :=
  match v with
  | Leaf x => [(prefix ++ label, x)]
  | Struct fs =>
    (fix go (fs : list (string * value)) :=
       match fs with [] => [] | (l, w) :: t => (set_field (prefix ++ label ++ "_") l w ++ go t)%list end) fs
  end.
Definition set_members (prefix : string) (fs : fields) : list (string * V) :=
  flat_map (fun f => set_field prefix (fst f) (snd f)) fs.

(** M 612-617 and 628-633: a name is accepted when it is one of those of the library. *)
Definition accepted (names : list (string * Z)) (s : list (string * V)) : bool :=
  forallb (fun e => match lookup (fst e) names with Some _ => true | None => false end) s.

(** E 482-505 and 540: the members set by primme_eigs; an error for a name that is not known. *)
Definition eigs_options (fs : fields) : res (list (string * V)) :=
  let s := set_members "" (changed changes_eigs fs) in
  if accepted info_cases s then Ok s else Err.

(** Which structure a member is set in. *)
Inductive where_ := Svds | Stage1 | Stage2.

(** S 425-437 *)
Definition stage_moved (l : string) (fs : fields) : fields :=
  match field l fs with Some (Struct gs) => setfield l (Struct (changed moved gs)) fs | _ => fs end.

(** S 797-803: structs called primme and primmeStage2 are for the stages.  Structs of that name inside
    other structs are not modelled. *)
Definition svds_field (f : string * value) : list (where_ * string * V) :=
  match snd f with
  | Struct gs =>
    if String.eqb (fst f) "primme" then map (fun e => (Stage1, fst e, snd e)) (set_members "" gs)
    else if String.eqb (fst f) "primmeStage2" then map (fun e => (Stage2, fst e, snd e)) (set_members "" gs)
    else map (fun e => (Svds, fst e, snd e)) (set_field "" (fst f) (snd f))
  | Leaf x => [(Svds, fst f, x)]
  end.

(** S 392-437 and 511.  The value of eps that S 401-408 sets when none is given is taken to be among the
    options already. *)
Definition svds_options (fs : fields) : res (list (where_ * string * V)) :=
  let s := flat_map svds_field (stage_moved "primmeStage2" (stage_moved "primme" (changed changes_svds fs))) in
  if forallb (fun e => match lookup (snd (fst e)) (match fst (fst e) with Svds => sinfo_cases | _ => info_cases end) with
                       | Some _ => true | None => false end) s
  then Ok s else Err.
End Options.
