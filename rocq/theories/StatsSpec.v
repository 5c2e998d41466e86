(* What the statistics are meant to be: a log of all values, from which averages are computed. *)
From Coq Require Import ZArith Reals String.
From Verif Require Import Base RBase Stats.
Local Open Scope R_scope.
Local Open Scope list_scope.

(* ---- a single meter ---- *)
Inductive event := Updated (v : R) (n : Z) (e : Z) | WasReset.
Definition since_reset (l : list event) : list (R * Z) :=
  fold_left (fun acc x => match x with Updated v n _ => acc ++ [(v, n)] | WasReset => [] end) l [].
Definition of_epoch (e : nat) (l : list event) : list R :=
  flat_map (fun x => match x with Updated v n e' => if (e' =? Z.of_nat e)%Z then [v / IZR n] else [] | WasReset => [] end) l.
Definition weighted_mean (l : list (R * Z)) : R := rsum (map (fun p => fst p * IZR (snd p)) l) / rsum (map (fun p => IZR (snd p)) l).
Definition positive (l : list event) : Prop := List.Forall (fun x => match x with Updated _ n e => (0 < n)%Z /\ (0 <= e)%Z | WasReset => True end) l.
Definition run_meter (l : list event) : meter :=
  fold_left (fun m x => match x with Updated v n e => fst (update_meter m v n e) | WasReset => reset_meter m end) l new_meter.

(* ---- the collection ---- *)
Record entry := { e_set : string; e_stat : string; e_epoch : Z; e_value : R }.
(* log: everything since the last hard reset; recent: the part since the last reset; iters: the sets of the
   updates since the last reset that were not frozen; sets: all sets since the last hard reset *)
Record trace := { t_vars : list string; t_epoch : Z; t_log : list entry; t_recent : list entry; t_sets : list string; t_iters : list string; t_time : option R }.
(* the value of a variable in one update: a number, the sum of a tensor, or the time since the last update *)
Definition spec_value (preds : list (string * value)) (time_start : option R) (now : R) (t : option R) (stat : string) : option R :=
  if String.eqb stat "sec/it" then
    match time_start with None => Some 0 | Some t0 => Some (now - match t with Some t => if Reqb t 0 then t0 else t | None => t0 end) end
  else match get stat preds with Some (Num r) => Some r | Some (Tensor l) => Some (rsum l) | None => None end.
Definition entries (t : trace) (preds : list (string * value)) (time_start : option R) (now : R) (set : string) (e : Z) : list entry :=
  flat_map (fun stat => match spec_value preds time_start now (t_time t) stat with
                        | Some v => [{| e_set := set; e_stat := stat; e_epoch := e; e_value := v |}] | None => [] end) (t_vars t).
Definition tstep (t : trace) (c : call) : trace :=
  match c with
  | NewEpoch => {| t_vars := t_vars t; t_epoch := (t_epoch t + 1)%Z; t_log := t_log t; t_recent := []; t_sets := t_sets t; t_iters := []; t_time := t_time t |}
  | Reset => {| t_vars := t_vars t; t_epoch := t_epoch t; t_log := t_log t; t_recent := []; t_sets := t_sets t; t_iters := []; t_time := t_time t |}
  | HardReset e => {| t_vars := t_vars t; t_epoch := e; t_log := []; t_recent := []; t_sets := []; t_iters := []; t_time := t_time t |}
  | AddLogVars l => {| t_vars := t_vars t ++ l; t_epoch := t_epoch t; t_log := t_log t; t_recent := t_recent t; t_sets := t_sets t; t_iters := t_iters t; t_time := t_time t |}
  | Update preds ts now f set =>
      (* the first update starts epoch 0 *)
      let fresh := (t_epoch t =? -1)%Z in
      let e := if fresh then 0%Z else t_epoch t in
      let new := entries t preds ts now set e in
      {| t_vars := t_vars t; t_epoch := e; t_log := t_log t ++ new; t_recent := (if fresh then [] else t_recent t) ++ new;
         t_sets := t_sets t ++ [set]; t_iters := (if fresh then [] else t_iters t) ++ (if f then [] else [set]);
         t_time := match ts with Some _ => if existsb (String.eqb "sec/it") (t_vars t) then Some now else t_time t | None => t_time t end |}
  end.
Definition start (vars : list string) (e : Z) : trace := {| t_vars := vars; t_epoch := e; t_log := []; t_recent := []; t_sets := []; t_iters := []; t_time := None |}.
Definition values (set stat : string) (l : list entry) : list R :=
  map e_value (filter (fun x => (String.eqb (e_set x) set && String.eqb (e_stat x) stat)%bool) l).
Definition at_epoch (e : Z) (l : list entry) : list entry := filter (fun x => (e_epoch x =? e)%Z) l.
(* sensible calls: epochs count from -1, and no variable is added that is already logged or that has the name
   of a stat set *)
Fixpoint sensible (t : trace) (cs : list call) : Prop :=
  match cs with
  | [] => True
  | c :: cs =>
      match c with
      | HardReset e => (-1 <= e)%Z
      | AddLogVars l => NoDup (t_vars t ++ l) /\ forall x, In x l -> ~ In x (t_sets t)
      | _ => True
      end /\ sensible (tstep t c) cs
  end.
