(* Model of implicitron/tools/stats.py: AverageMeter, and Stats without plotting and files.
   Numbers are exact reals; NaN (the mean of no values) is None. *)
From Coq Require Import ZArith Reals String.
From Verif Require Import Base RBase.
Local Open Scope R_scope.
Local Open Scope list_scope.

(* np.array(x).mean() *)
Definition mean (l : list R) : option R := match l with [] => None | _ => Some (rsum l / INR (length l)) end.
(* l[i] for a Python int *)
Definition py_index (len : nat) (i : Z) : option nat :=
  if (0 <=? i)%Z then (if (i <? Z.of_nat len)%Z then Some (Z.to_nat i) else None)
  else (if (0 <=? Z.of_nat len + i)%Z then Some (Z.to_nat (Z.of_nat len + i)) else None).

(* 26-40 *)
Record meter := { history : list (list R); val : R; avg : R; sum : R; count : Z }.
Definition new_meter : meter := {| history := []; val := 0; avg := 0; sum := 0; count := 0 |}.
Definition reset_meter (m : meter) : meter := {| history := history m; val := 0; avg := 0; sum := 0; count := 0 |}.
(* 44-45 *)
Definition padded (epoch : Z) (h : list (list R)) : list (list R) := h ++ repeat [] (Z.to_nat (epoch + 1) - length h).
(* 42-51. An update that raises leaves what it has already done. *)
Definition update_meter (m : meter) (v : R) (n epoch : Z) : meter * result unit :=
  let h := padded epoch (history m) in
  let m1 := {| history := h; val := val m; avg := avg m; sum := sum m; count := count m |} in
  match py_index (length h) epoch with
  | None => (m1, Fail EIndex)
  | Some e =>
      if (n =? 0)%Z then (m1, Fail EValue)                                       (* ZeroDivisionError *)
      else
        let h' := match nth_error h e with Some x => firstn e h ++ (x ++ [v / IZR n]) :: skipn (S e) h | None => h end in
        let s := sum m + v * IZR n in let c := (count m + n)%Z in
        if (c =? 0)%Z then ({| history := h'; val := v; avg := avg m; sum := s; count := c |}, Fail EValue)
        else ({| history := h'; val := v; avg := s / IZR c; sum := s; count := c |}, Ok tt)
  end.
(* 53-62: with epoch = -1 the averages of all epochs *)
Inductive averages := One (a : option R) | Many (l : list (option R)).
Definition meter_averages (m : meter) (epoch : Z) : result (option averages) :=
  match history m with
  | [] => Ok None
  | h => if (epoch =? -1)%Z then Ok (Some (Many (map mean h)))
         else match py_index (length h) epoch with
              | None => Fail EIndex
              | Some e => match nth_error h e with Some x => Ok (Some (One (mean x))) | None => Fail EIndex end
              end
  end.
Definition get_all_values (m : meter) : list R := concat (history m).              (* 64-67 *)

(* dictionaries keep the order of insertion *)
Fixpoint get {A} (k : string) (d : list (string * A)) : option A :=
  match d with [] => None | (k', a) :: d => if String.eqb k k' then Some a else get k d end.
Fixpoint put {A} (k : string) (a : A) (d : list (string * A)) : list (string * A) :=
  match d with [] => [(k, a)] | (k', a') :: d => if String.eqb k k' then (k, a) :: d else (k', a') :: put k a d end.

(* 108-126. log_vars is the caller's object: a list, or a tuple that cannot grow *)
Record stats_obj := { log_vars : list string; growable : bool; epoch : Z;
                      stats : list (string * list (string * meter)); it : list (string * Z); t_last_update : option R }.
(* 168-174 *)
Definition reset (s : stats_obj) : stats_obj :=
  {| log_vars := log_vars s; growable := growable s; epoch := epoch s;
     stats := map (fun p => (fst p, map (fun q => (fst q, reset_meter (snd q))) (snd p))) (stats s);
     it := map (fun p => (fst p, (-1)%Z)) (stats s); t_last_update := t_last_update s |}.
(* 176-182 *)
Definition hard_reset (s : stats_obj) (e : Z) : stats_obj :=
  reset {| log_vars := log_vars s; growable := growable s; epoch := e; stats := []; it := it s; t_last_update := t_last_update s |}.
Definition new_stats (vars : list string) (grow : bool) (e : Z) : stats_obj :=
  hard_reset {| log_vars := vars; growable := grow; epoch := e; stats := []; it := []; t_last_update := None |} e.
(* 184-187 *)
Definition new_epoch (s : stats_obj) : stats_obj :=
  reset {| log_vars := log_vars s; growable := growable s; epoch := (epoch s + 1)%Z; stats := stats s; it := it s; t_last_update := t_last_update s |}.
(* 197-201: the test looks for the name among the stat sets *)
Fixpoint add_log_vars (s : stats_obj) (added : list string) : stats_obj * result unit :=
  match added with
  | [] => (s, Ok tt)
  | x :: added =>
      match get x (stats s) with
      | Some _ => add_log_vars s added
      | None => if growable s then add_log_vars {| log_vars := log_vars s ++ [x]; growable := true; epoch := epoch s; stats := stats s; it := it s; t_last_update := t_last_update s |} added
                else (s, Fail EAttr)
      end
  end.
(* 189-195: a number, or a tensor, whose elements are summed *)
Inductive value := Num (r : R) | Tensor (l : list R).
Definition gather_value (v : value) : R := match v with Num r => r | Tensor l => rsum l end.
(* 220-244: one variable. The time stamp 0.0 counts as missing (or). *)
Definition log_value (preds : list (string * value)) (time_start : option R) (now : R) (t_last : option R) (stat : string) : option R * option R :=
  if String.eqb stat "sec/it" then
    match time_start with
    | None => (Some 0, t_last)
    | Some t0 => (Some (now - match t_last with Some t => if Reqb t 0 then t0 else t | None => t0 end), Some now)
    end
  else (option_map gather_value (get stat preds), t_last).
Fixpoint log_all (vars : list string) (preds : list (string * value)) (time_start : option R) (now : R) (e : Z)
    (d : list (string * meter)) (t_last : option R) : list (string * meter) * option R * result unit :=
  match vars with
  | [] => (d, t_last, Ok tt)
  | stat :: vars =>
      let m := match get stat d with Some m => m | None => new_meter end in
      let '(v, t) := log_value preds time_start now t_last stat in
      match v with
      | None => log_all vars preds time_start now e (put stat m d) t
      | Some v => match update_meter m v 1 e with
                  | (m', Ok _) => log_all vars preds time_start now e (put stat m' d) t
                  | (m', Fail x) => (put stat m' d, t, Fail x)
                  end
      end
  end.
(* 203-244 *)
Definition update (s : stats_obj) (preds : list (string * value)) (time_start : option R) (now : R) (freeze : bool) (stat_set : string) : stats_obj * result unit :=
  let s := if (epoch s =? -1)%Z then new_epoch s else s in
  let '(d, i) := match get stat_set (stats s) with
                 | Some d => (d, match get stat_set (it s) with Some i => i | None => (-1)%Z end)
                 | None => ([], (-1)%Z) end in
  let i := if freeze then i else (i + 1)%Z in
  let '(d', t, r) := log_all (log_vars s) preds time_start now (epoch s) d (t_last_update s) in
  ({| log_vars := log_vars s; growable := growable s; epoch := epoch s; stats := put stat_set d' (stats s);
      it := put stat_set i (it s); t_last_update := t |}, r).
(* 246-272. None stands for the current epoch; -1 for the list of all epochs before it *)
Definition pick (l : list (option R)) (es : list nat) : result (list (option R)) := rmap (fun e => match nth_error l e with Some a => Ok a | None => Fail EIndex end) es.
Definition stat_averages (cur : Z) (e : Z) (m : meter) : result (option averages) :=
  if (e =? -1)%Z then
    r <- meter_averages m (-1) ;;
    match r with
    | Some (Many l) => l' <- pick l (seq 0 (Z.to_nat cur)) ;; Ok (Some (Many l'))
    | _ => match seq 0 (Z.to_nat cur) with [] => Ok (Some (Many [])) | _ => Fail EType end     (* None[e] *)
    end
  else meter_averages m e.
Definition get_epoch_averages (s : stats_obj) (e : option Z) : result (list (string * (option Z * list (string * option averages)))) :=
  let e := match e with None => epoch s | Some e => e end in
  rmap (fun p => rows <- rmap (fun q => a <- stat_averages (epoch s) e (snd q) ;; Ok (fst q, a))
                           (filter (fun q => negb (count (snd q) =? 0)%Z) (snd p)) ;;
                 Ok (fst p, (get (fst p) (it s), rows))) (stats s).

(* the calls of a user; a call that raises keeps what it has done *)
Inductive call := NewEpoch | Reset | HardReset (e : Z) | AddLogVars (l : list string)
  | Update (preds : list (string * value)) (time_start : option R) (now : R) (freeze : bool) (stat_set : string).
Definition step (s : stats_obj) (c : call) : stats_obj :=
  match c with
  | NewEpoch => new_epoch s
  | Reset => reset s
  | HardReset e => hard_reset s e
  | AddLogVars l => fst (add_log_vars s l)
  | Update p ts now f set => fst (update s p ts now f set)
  end.
