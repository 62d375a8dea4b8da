(** Model of the dynamic choice between GD+k and JDQMR: main_iter.c 428-437, 604-625,
    1181-1187, 1221-1228, 1295-1302, switch_from_JDQMR 1943-2011, switch_from_GDpk
    2050-2109, the averaging window of update_statistics 2238-2320 and
    update_slowdown 2372-2401.

    The timings, and with them the ratios of expected times, are whatever the clock
    gives: they are fields of the events.  Ratios are rational numbers. *)
From Coq Require Import List Arith ZArith QArith Bool Lia.
Import ListNotations.
Open Scope Z_scope.

(** dyn: dynamicMethodSwitch; inner: maxInnerIterations; rightX: projectors.RightX;
    seen: qmr_only <> 0; restarts: stats.numRestarts; acc_jdq, acc_gdk, acc: the
    accumulated times and accum_jdq_gdk. *)
Record dst := Dst {
  dyn : Z;
  inner : Z;
  rightX : bool;
  seen : bool;
  restarts : nat;
  acc_jdq : Q;
  acc_gdk : Q;
  acc : Q
}.

(** maxBasisSize + (locking ? numEvals : 0) >= n *)
Definition saturates (locking : bool) (maxBasis numEvals n : nat) : bool :=
  (n <=? maxBasis + (if locking then numEvals else 0))%nat.

(** 428-437 and initializeModel; [x] is RightX before. *)
Definition dyn_start (locking : bool) (maxBasis numEvals n : nat) (x : bool) : dst :=
  Dst (if (numEvals <? 5)%nat || saturates locking maxBasis numEvals n then 1 else 3)
      0 x false 0%nat 0%Q 0%Q 1%Q.

(** One evaluation: what update_statistics returned, qmr_only <> 0 after it, the ratio
    of the best case of 1957 and the ratio of 1991 and 2086 (averaged over the
    processes), and gdk_plus_MV_PR. *)
Record meas := Meas {
  m_ok : bool;
  m_seen : bool;
  m_best : Q;
  m_ratio : Q;
  m_weight : Q
}.

Definition Qgt (x y : Q) : bool := negb (Qle_bool x y).
Definition Qlt (x y : Q) : bool := negb (Qle_bool y x).

(** 2003-2005 and 2099-2101. *)
Definition accumulate (m : meas) (s : dst) : dst :=
  let j := (acc_jdq s + m_weight m * m_ratio m)%Q in
  let g := (acc_gdk s + m_weight m)%Q in
  Dst (dyn s) (inner s) (rightX s) (seen s) (restarts s) j g (j / g)%Q.

Definition use_gdk (d : Z) (s : dst) : dst :=
  Dst d 0 true (seen s) (restarts s) (acc_jdq s) (acc_gdk s) (acc s).
Definition use_jdq (d : Z) (s : dst) : dst :=
  Dst d (-1) false (seen s) (restarts s) (acc_jdq s) (acc_gdk s) (acc s).

(** 1943-2011 *)
Definition switch_from_JDQMR (m : meas) (s : dst) : dst :=
  if (dyn s =? 2) && Qgt (m_best m) (105 # 100) then use_gdk (-1) s
  else
    let switchto := if dyn s =? 2 then 1 else if dyn s =? 4 then 3 else 0 in
    accumulate m (if Qgt (m_ratio m) (105 # 100) then use_gdk switchto s else s).

(** 2050-2109 *)
Definition switch_from_GDpk (sat : bool) (m : meas) (s : dst) : dst :=
  if (restarts s =? 0)%nat || sat then s
  else
    let switchto := if dyn s =? 1 then 2 else if dyn s =? 3 then 4 else 0 in
    if negb (seen s) then use_jdq switchto s
    else accumulate m (if Qlt (m_ratio m) (95 # 100) then use_jdq switchto s else s).

(** 2305-2317: qmr_only changes only while JDQMR runs, and only if the statistics
    are updated. *)
Definition see (m : meas) (s : dst) : dst :=
  if m_ok m && ((dyn s =? 2) || (dyn s =? 4)) then
    Dst (dyn s) (inner s) (rightX s) (m_seen m) (restarts s) (acc_jdq s) (acc_gdk s) (acc s)
  else s.

Inductive event :=
| EOuter (conv : nat) (m : meas)     (* 604-625 with recentlyConverged pairs *)
| ERestart (m : meas).               (* 1172, 1181-1187 *)

Definition restarted (s : dst) : dst :=
  Dst (dyn s) (inner s) (rightX s) (seen s) (S (restarts s)) (acc_jdq s) (acc_gdk s) (acc s).

Definition dyn_step (sat : bool) (e : event) (s : dst) : dst :=
  match e with
  | EOuter conv m =>
      if (0 <? dyn s) && ((0 <? conv)%nat || (dyn s =? 2)) then
        let s1 := see m s in
        if m_ok m then
          if dyn s1 =? 3 then switch_from_GDpk sat m s1
          else if (dyn s1 =? 2) || (dyn s1 =? 4) then switch_from_JDQMR m s1
          else s1
        else s1
      else s
  | ERestart m =>
      let s1 := restarted s in
      if dyn s1 =? 1 then switch_from_GDpk sat m (see m s1) else s1
  end.

Fixpoint dyn_run (sat : bool) (h : list event) (s : dst) : dst :=
  match h with [] => s | e :: t => dyn_run sat t (dyn_step sat e s) end.

(** 1221-1228 and 1295-1302: the recommendation. *)
Definition recommend (s : dst) : Z :=
  if 0 <? dyn s then
    if Qlt (acc s) (96 # 100) then -2
    else if Qgt (acc s) (104 # 100) then -1
    else -3
  else dyn s.

(** ** update_slowdown, 2372-2401, on floating point numbers: [F] with the comparison,
    the operations used, and the bounds 1.1 and 2.5.  Nothing is assumed of NaN but
    that [lt] is false on it. *)
Section Slowdown.
Context {F : Type}.
Variable lt : F -> F -> bool.
Variables one low high : F.
Variable eqb : F -> F -> bool.
Variables (div sub : F -> F -> F) (ln opp : F -> F).

(** common.h 656, 659 *)
Definition fmax (a b : F) : F := if lt b a then a else b.
Definition fmin (a b : F) : F := if lt a b then a else b.

Definition rate_slowdown (gdk jdq : F) : F :=
  if lt gdk one then
    if lt jdq one then div (ln gdk) (ln jdq)
    else if eqb jdq one then high
    else div (opp (ln gdk)) (ln jdq)
  else if eqb gdk one then low
  else
    if lt jdq one then div (ln gdk) (ln jdq)
    else if eqb jdq one then low
    else div (ln jdq) (ln gdk).

Definition slowdown (ratio gdk jdq : F) : F :=
  fmax low (fmin (fmax (div ratio (sub ratio one)) (fmin (rate_slowdown gdk jdq) ratio)) high).
End Slowdown.

(** ** The averaging window, 2211-2219 and 2245-2252 and 2292-2295, 2317-2320.  A number is
    [None] if it is NaN or infinite. *)
Record window := Win {
  gdk_log : option Q; gdk_MV : option Q; nevals_gdk : nat;
  jdq_log : option Q; jdq_MV : option Q; nevals_jdq : nat;
  nextReset : nat
}.
Definition win_start : window := Win (Some 0%Q) (Some 0%Q) 0 (Some 0%Q) (Some 0%Q) 0 1.

Definition per (x : option Q) (n : nat) : option Q :=
  match x, n with
  | Some q, S _ => Some (q / inject_Z (Z.of_nat n))%Q
  | _, _ => None
  end.
Definition more (x : option Q) (d : Q) : option Q :=
  match x with Some q => Some (q + d)%Q | None => None end.

(** One update while GD+k ([jdq] false) or JDQMR runs: [conv] pairs converged now,
    [total] so far; [lg] is the logarithm of the reduction, zero if the residual
    did not decrease; [nMV] the products. *)
Definition win_update (jdq : bool) (conv total : nat) (lg nMV : Q) (w : window) : window :=
  let w1 := if (0 <? conv)%nat then
              if jdq then Win (gdk_log w) (gdk_MV w) (nevals_gdk w) (jdq_log w) (jdq_MV w) (nevals_jdq w + conv) (nextReset w)
              else Win (gdk_log w) (gdk_MV w) (nevals_gdk w + conv) (jdq_log w) (jdq_MV w) (nevals_jdq w) (nextReset w)
            else w in
  let w2 := if (nextReset w1 <=? total / 10)%nat then
              Win (per (gdk_log w1) (nevals_gdk w1)) (per (gdk_MV w1) (nevals_gdk w1)) 1
                  (per (jdq_log w1) (nevals_jdq w1)) (per (jdq_MV w1) (nevals_jdq w1)) 1
                  (total / 10 + 1)
            else w1 in
  if jdq then Win (gdk_log w2) (gdk_MV w2) (nevals_gdk w2) (more (jdq_log w2) lg) (more (jdq_MV w2) nMV) (nevals_jdq w2) (nextReset w2)
  else Win (more (gdk_log w2) lg) (more (gdk_MV w2) nMV) (nevals_gdk w2) (jdq_log w2) (jdq_MV w2) (nevals_jdq w2) (nextReset w2).
