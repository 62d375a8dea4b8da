(** What the documentation promises the monitor (doc/source/appendix.rst 1104-1189). *)
From Verif Require Import Base Values PermModel MonitorModel.
From Coq Require Import List Arith ZArith Bool.
Import ListNotations.

Section Spec.
Context {R : Type}.
(** How a number of the solver looks in the type of the monitor. *)
Variable look : R -> R.

(** The cell [j] of the array the monitor is given holds the number [x]. *)
Definition cell (p : @ptr R) (j : nat) (x : R) : Prop :=
  exists l, p = Some l /\ nth_error l j = Some (Some (look x)).
(** The monitor is given the first [n] numbers of the array [a]. *)
Definition shows (p : @ptr R) (n : Z) (a : list R) : Prop :=
  forall j x, (Z.of_nat j < n)%Z -> nth_error a j = Some x -> cell p j x.

(** Neither inner_its nor LSRes. *)
Definition no_linear_system (r : @report R) : Prop := r_inner r = None /\ r_LSRes r = None.

(** "every outer iterations ... the following inputs are provided" *)
Definition outer_documented (r : report) (vals norms lvals lnorms : list R) (flags lflags : list flag)
    (iblock : list nat) (size bsize nlocked : nat) : Prop :=
  r_event r = outer_iteration /\
  shows (r_evals r) (Z.of_nat size) vals /\ shows (r_norms r) (Z.of_nat size) norms /\
  r_size r = Z.of_nat size /\ r_flags r = Some flags /\
  r_iblock r = Some iblock /\ r_bsize r = Z.of_nat bsize /\
  shows (r_levals r) (Z.of_nat nlocked) lvals /\ shows (r_lnorms r) (Z.of_nat nlocked) lnorms /\
  r_nlocked r = Z.of_nat nlocked /\ r_lflags r = Some lflags /\ no_linear_system r.

(** "every QMR iteration": the pair and the state of the linear system. *)
Definition inner_documented (r : report) (val norm tau : R) (its : nat) : Prop :=
  r_event r = inner_iteration /\ cell (r_evals r) 0 val /\ cell (r_norms r) 0 norm /\
  r_inner r = Some (Z.of_nat its) /\ cell (r_LSRes r) 0 tau.

(** "a new eigenpair in the basis passed the convergence criterion": pair [p]. *)
Definition converged_documented (r : report) (vals norms : list R) (flags : list flag)
    (size p : nat) : Prop :=
  r_event r = converged /\
  (exists rest, r_iblock r = Some (p :: rest)) /\ r_bsize r = 1%Z /\
  shows (r_evals r) (Z.of_nat size) vals /\ shows (r_norms r) (Z.of_nat size) norms /\
  r_size r = Z.of_nat size /\ r_flags r = Some flags /\ no_linear_system r.

(** "new pair was added to the locked eigenvectors ... the last element ... corresponds to
    the recent locked pair": after [k] pairs the pair with value, norm and flag given. *)
Definition locked_documented (r : report) (k : nat) (val norm : R) (f : flag) : Prop :=
  r_event r = locked_pair /\ r_nlocked r = Z.of_nat (S k) /\
  cell (r_levals r) k val /\ cell (r_lnorms r) k norm /\
  (exists lf, r_lflags r = Some lf /\ nth_error lf k = Some f).
End Spec.
