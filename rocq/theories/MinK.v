(* Model of csrc/utils/mink.cuh: the per-thread top-K structure of the CUDA kernels. *)
From Verif Require Import Base RBase.
Local Open Scope R_scope.

(* mink.cuh:40-48,108-114. The arrays keys/vals belong to the caller; max_key and max_idx
   are uninitialised until the first add. *)
Record mink (A : Type) := mkMinK {
  mk_keys : list R; mk_vals : list A; mk_K : nat; mk_size : nat;
  mk_max_key : option R; mk_max_idx : option nat }.
Arguments mkMinK {A}. Arguments mk_keys {A}. Arguments mk_vals {A}. Arguments mk_K {A}.
Arguments mk_size {A}. Arguments mk_max_key {A}. Arguments mk_max_idx {A}.

(* mink.cuh:48-49 *)
Definition mink_init {A} (keys : list R) (vals : list A) (K : nat) : mink A :=
  mkMinK keys vals K 0 None None.

(* reading an uninitialised field is undefined behaviour *)
Definition rinit {A} (o : option A) : result A := match o with Some a => Ok a | None => Fail EOutOfBounds end.

(* mink.cuh:75-81: the rescan loop *)
Definition mink_rescan (keys : list R) (K : nat) (max_key : R) (max_idx : nat) : result (R * nat) :=
  rfold (fun '(mk, mi) k =>
           cur <- rget keys k ;;
           Ok (if Rltb mk cur then (cur, k) else (mk, mi)))
        (seq 0 K) (max_key, max_idx).

(* mink.cuh:61-83 (RegisterMinK::add, 131-152, is the same code over registers) *)
Definition mink_add {A} (s : mink A) (key : R) (val : A) : result (mink A) :=
  if (mk_size s <? mk_K s)%nat then
    keys <- upd (mk_keys s) (mk_size s) key ;;
    vals <- upd (mk_vals s) (mk_size s) val ;;
    newmax <- (if (mk_size s =? 0)%nat then Ok true
               else mk <- rinit (mk_max_key s) ;; Ok (Rltb mk key)) ;;
    Ok (mkMinK keys vals (mk_K s) (S (mk_size s))
         (if newmax then Some key else mk_max_key s)
         (if newmax then Some (mk_size s) else mk_max_idx s))
  else
    mk <- rinit (mk_max_key s) ;;
    if Rltb key mk then
      mi <- rinit (mk_max_idx s) ;;
      keys <- upd (mk_keys s) mi key ;;
      vals <- upd (mk_vals s) mi val ;;
      m <- mink_rescan keys (mk_K s) key mi ;;
      Ok (mkMinK keys vals (mk_K s) (mk_size s) (Some (fst m)) (Some (snd m)))
    else Ok s.

(* mink.cuh:96-103: one step of the bubble sort *)
Definition bubble_step {A} (kv : list R * list A) (j : nat) : result (list R * list A) :=
  let '(keys, vals) := kv in
  k1 <- rget keys (S j) ;;
  k0 <- rget keys j ;;
  if Rltb k1 k0 then
    v0 <- rget vals j ;;
    v1 <- rget vals (S j) ;;
    keys1 <- upd keys j k1 ;;
    vals1 <- upd vals j v1 ;;
    keys2 <- upd keys1 (S j) k0 ;;
    vals2 <- upd vals1 (S j) v0 ;;
    Ok (keys2, vals2)
  else Ok kv.

(* mink.cuh:93-106 *)
Definition mink_sort {A} (s : mink A) : result (mink A) :=
  kv <- rfold (fun kv i => rfold bubble_step (seq 0 (mk_size s - i - 1)) kv)
              (seq 0 (mk_size s - 1)) (mk_keys s, mk_vals s) ;;
  Ok (mkMinK (fst kv) (snd kv) (mk_K s) (mk_size s) (mk_max_key s) (mk_max_idx s)).

(* a run of adds *)
Definition mink_adds {A} (s : mink A) (ins : list (R * A)) : result (mink A) :=
  rfold (fun s kv => mink_add s (fst kv) (snd kv)) ins s.
