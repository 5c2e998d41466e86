(* Model of /repo/pytorch3d/implicitron/dataset/data_loader_map_provider.py: which frames come in
   which batch.  A frame is its position in a dataset, a loader the batches of one epoch.
   Random numbers are oracles, one per call.  Workers and collation are not modelled. *)
From Coq Require Import Arith List Bool.
From Verif Require Import Base.
Import ListNotations.

(* torch.randperm(n) and torch.randint(n, ...)[i] at call k *)
Record chance := Chance { randperm : nat -> nat -> list nat; randint : nat -> nat -> nat -> nat }.

(* ---- DoublePoolBatchSampler, 149-226 ---- *)
Record pool := Pool { first_indices : list nat; rest_indices : list nat; batch_size : nat; replacement : bool; num_batches : option nat }.
(* __init__, 155-188; batch_size - 1 > len(rest) *)
Definition new_pool (first rest : list nat) (size : nat) (repl : bool) (n : option nat) : result pool :=
  let n := match n with Some O => None | _ => n end in
  if size <=? length rest + 1 then Ok (Pool first rest size repl n) else Fail EValue.
(* __len__, 190-193 *)
Definition pool_len (p : pool) : nat :=
  match num_batches p with Some n => n | None => length (first_indices p) end.
(* x[: size - 1]; the slice of a size of zero ends before the last entry *)
Definition up_to (size : nat) (l : list nat) : list nat :=
  match size with O => removelast l | S k => firstn k l end.
(* __iter__, 195-209: positions of the first elements, and the number of calls of randperm so far;
   torch.randint(0) and a division by zero raise *)
Definition first_positions (ch : chance) (p : pool) : result (list nat * nat) :=
  let n := length (first_indices p) in
  if replacement p then
    if n =? 0 then Fail ERuntime else Ok (map (randint ch 0 n) (seq 0 (pool_len p)), 1)
  else
    match num_batches p with
    | Some m =>
        if n =? 0 then Fail ERuntime
        else
          let n_copies := 1 + (m - 1) / n in
          Ok (firstn m (concat (map (fun k => randperm ch k n) (seq 0 n_copies))), n_copies)
    | None => Ok (randperm ch 0 n, 1)
    end.
(* __iter__, 210-226 *)
Definition pool_iter (ch : chance) (p : pool) : result (list (list nat)) :=
  f <- first_positions ch p ;;
  firsts <- rmap (rget (first_indices p)) (fst f) ;;
  if batch_size p =? 1 then Ok (map (fun i => [i]) firsts)
  else
    rmap (fun ki =>
      rest <- rmap (rget (rest_indices p)) (up_to (batch_size p) (randperm ch (snd f + fst ki) (length (rest_indices p)))) ;;
      Ok (snd ki :: rest)) (combine (seq 0 (length firsts)) firsts).

(* ---- the loaders ---- *)
(* torch BatchSampler(drop_last=True) *)
Fixpoint chunks (fuel size : nat) (l : list nat) : list (list nat) :=
  match fuel with
  | O => []
  | S fuel => if length l <? size then [] else firstn size l :: chunks fuel size (skipn size l)
  end.
Definition batches_of (size : nat) (l : list nat) : list (list nat) := chunks (length l) size l.
(* _simple_loader, 399-431, also SimpleDataLoaderMapProvider._make_data_loader, 130-146.
   RandomSampler and BatchSampler refuse empty datasets and batches with ValueError. *)
Definition simple_loader (ch : chance) (size len n : nat) : result (list (list nat)) :=
  if size =? 0 then Fail EValue
  else if len =? 0 then Fail EValue
  else Ok (batches_of size (if 0 <? n then map (randint ch 0 len) (seq 0 (size * n)) else randperm ch 0 len)).
(* the frames of a dataset, known or unseen, and its batches for evaluation *)
Record dataset := Dataset { known : list bool; eval_batches : option (list (list nat)) }.
Definition size_of (d : dataset) : nat := length (known d).
(* ConcatDataset([dataset, train_dataset]) *)
Inductive item := Own (i : nat) | FromTrain (i : nat).
Definition concat_item (len : nat) (i : nat) : item := if i <? len then Own i else FromTrain (i - len).
(* _train_loader, 433-465; num_batches of zero is none *)
Definition train_loader (ch : chance) (size : nat) (d : dataset) (train : option dataset) (n : nat) : result (list (list item)) :=
  match train with
  | None => Fail EValue
  | Some t =>
      p <- new_pool (seq 0 (size_of d)) (seq (size_of d) (size_of t)) size true (Some n) ;;
      bs <- pool_iter ch p ;;
      Ok (map (map (concat_item (size_of d))) bs)
  end.
(* _known_loader, 467-502 *)
Definition frames (d : dataset) (k : bool) : list nat :=
  filter (fun i => Bool.eqb (nth i (known d) false) k) (seq 0 (size_of d)).
Definition known_loader (ch : chance) (size : nat) (d : dataset) (n : nat) : result (list (list item)) :=
  p <- new_pool (frames d false) (frames d true) size true (Some n) ;;
  bs <- pool_iter ch p ;;
  Ok (map (map Own) bs).
Inductive conditioning := Same | Train | Known.
(* SequenceDataLoaderMapProvider._make_data_loader, 334-397.  scenes says whether
   images_per_seq_options is given, and scene is SceneBatchSampler for a number of batches (it is
   modelled in SceneSampler.v). *)
Definition make_loader (ch : chance) (size : nat) (scenes : bool) (scene : nat -> result (list (list nat)))
    (d : option dataset) (n : nat) (train : option dataset) (c : conditioning) : result (option (list (list item))) :=
  match d with
  | None => Ok None
  | Some d =>
      match eval_batches d with
      | Some bs => Ok (Some (map (map Own) bs))
      | None =>
          if scenes && negb (match c with Same => true | _ => false end) then Fail EValue
          else if (size =? 1) || (negb scenes && match c with Same => true | _ => false end) then
            bs <- simple_loader ch size (size_of d) n ;; Ok (Some (map (map Own) bs))
          else if scenes then
            bs <- scene (if n =? 0 then size_of d else n) ;; Ok (Some (map (map Own) bs))
          else match c with
               | Train => bs <- train_loader ch size d train n ;; Ok (Some bs)
               | _ => bs <- known_loader ch size d n ;; Ok (Some bs)
               end
      end
  end.
