(* Model of implicitron/dataset/scene_batch_sampler.py and of the frame order of dataset_base.py / json_index_dataset.py.
   Random choices are nondeterminism: a random computation is the set of its possible outcomes. *)
From Coq Require Import ZArith Reals String Bool.
From Verif Require Import Base RBase Stats.
Local Open Scope list_scope.

Definition nd (A : Type) : Type := result A -> Prop.
Definition nret {A} (r : result A) : nd A := fun r' => r' = r.
Definition nbind {A B} (m : nd A) (f : A -> nd B) : nd B :=
  fun r => (exists a, m (Ok a) /\ f a r) \/ (exists e, m (Fail e) /\ r = Fail e).
Notation "x <~ m ;;; k" := (nbind m (fun x => k)) (at level 61, m at next level, right associativity).
Fixpoint nmap {A B} (f : A -> nd B) (l : list A) : nd (list B) :=
  match l with
  | [] => nret (Ok [])
  | a :: l => b <~ f a ;;; bs <~ nmap f l ;;; nret (Ok (b :: bs))
  end.

(* np.random.choice(x, size=size, replace=replace) *)
Definition np_choice {A} (x : list A) (size : Z) (replace : bool) : nd (list A) :=
  if (size <? 0)%Z then nret (Fail EValue)
  else if (length x =? 0)%nat && (0 <? size)%Z then nret (Fail EValue)
  else if negb replace && (Z.of_nat (length x) <? size)%Z then nret (Fail EValue)
  else fun r => exists ps c, Z.of_nat (length ps) = size /\ (replace = false -> NoDup ps) /\
                             Forall2 (fun p a => nth_error x p = Some a) ps c /\ r = Ok c.
(* np.random.choice(x) *)
Definition np_choice1 {A} (x : list A) : nd A := fun r => match x with [] => r = Fail EValue | _ => exists a, In a x /\ r = Ok a end.
(* np.random.randint(n) *)
Definition np_randint (n : nat) : nd nat := fun r => match n with 0%nat => r = Fail EValue | _ => exists i, (i < n)%nat /\ r = Ok i end.

(* scene_batch_sampler.py 203-216 *)
Definition capped_random_choice {A} (x : list A) (size : Z) (replace : bool) : nd (list A) :=
  let len_x := Z.of_nat (length x) in
  if replace then np_choice x size (len_x <? size)%Z else np_choice x (Z.min size len_x) false.

(* a frame in order: timestamp, frame number, index in the dataset (dataset_base.py 107-134) *)
Definition stamp : Type := (R * Z * nat)%type.
Definition f_ts (f : stamp) : R := fst (fst f).
Definition f_no (f : stamp) : Z := snd (fst f).
Definition f_idx (f : stamp) : nat := snd f.
(* what the sampler uses of a dataset *)
Record dataset := { seq_names : list string; frames_of : string -> list stamp; category_to_names : list (string * list string) }.
Definition indices_of (D : dataset) (seq : string) : list nat := map f_idx (frames_of D seq).   (* dataset_base.py 136-143 *)

(* scene_batch_sampler.py 28-53 *)
Record sampler := { batch_size : Z; images_per_seq_options : list Z; sample_consecutive_frames : bool;
                    max_gap : Z; max_gap_seconds : R; category_aware : bool }.
(* 60-69 *)
Definition new_sampler (c : sampler) : result sampler :=
  if (batch_size c <=? 0)%Z then Fail EValue else match images_per_seq_options c with [] => Fail EValue | _ => Ok c end.

(* 161-192 *)
Definition append_last (segs : list (list nat)) (idx : nat) : result (list (list nat)) :=
  match segs with [] => Fail EIndex | _ => Ok (removelast segs ++ [last segs [] ++ [idx]]) end.
Definition new_group (gap : Z) (gap_s : R) (last_no : Z) (last_ts : R) (f : stamp) : bool :=
  ((gap <? f_no f - last_no) && (0 <? gap))%Z || (Rltb gap_s (f_ts f - last_ts) && Rltb 0 gap_s).
Fixpoint split_loop (gap : Z) (gap_s : R) (segs : list (list nat)) (last_no : Z) (last_ts : R) (l : list stamp) : result (list (list nat)) :=
  match l with
  | [] => Ok segs
  | f :: l =>
      if Rleb (f_ts f) 0 && (f_no f <=? last_no)%Z then Fail ERuntime                 (* AssertionError *)
      else segs <- (if new_group gap gap_s last_no last_ts f then Ok (segs ++ [[f_idx f]]) else append_last segs (f_idx f)) ;;
           split_loop gap gap_s segs (f_no f) (f_ts f) l
  end.
Definition split_to_segments (gap : Z) (gap_s : R) (l : list stamp) : result (list (list nat)) :=
  if (gap <=? 0)%Z && Rleb gap_s 0 then Fail ERuntime
  else split_loop gap gap_s [] (- gap - 1) (- gap_s - 1)%R l.

(* the order of Python lists and of the pairs (len(segment), segment) *)
Fixpoint list_ltb (a b : list nat) : bool :=
  match a, b with
  | _, [] => false
  | [], _ :: _ => true
  | x :: a, y :: b => (x <? y)%nat || ((x =? y)%nat && list_ltb a b)
  end.
Definition seg_ltb (a b : list nat) : bool := (length a <? length b)%nat || ((length a =? length b)%nat && list_ltb a b).
(* 193-200 *)
Definition cull_short_segments (segs : list (list nat)) (min_size : Z) : result (list (list nat)) :=
  match segs with
  | [] => Fail EValue                                                                  (* max() of nothing *)
  | s :: rest =>
      let longest := fold_left (fun m x => if seg_ltb m x then x else m) rest s in
      if (Z.of_nat (length longest) <? min_size)%Z then Ok [longest]
      else Ok (filter (fun s => (min_size <=? Z.of_nat (length s))%Z) segs)
  end.
(* 133-159 *)
Definition build_segment_index (c : sampler) (D : dataset) (name : string) (size : Z) : result (list (list nat * nat)) :=
  segs <- (if (0 <? max_gap c)%Z || Rltb 0 (max_gap_seconds c) then
             segs <- split_to_segments (max_gap c) (max_gap_seconds c) (frames_of D name) ;;
             segs <- cull_short_segments segs size ;;
             match segs with [] => Fail ERuntime | _ => Ok segs end
           else Ok [indices_of D name]) ;;
  Ok (flat_map (fun s => map (fun i => (s, i)) (seq 0 (length s))) segs).

(* collections.Counter(l).items(): in the order of first occurrence *)
Fixpoint counter_loop (d : list (string * nat)) (l : list string) : list (string * nat) :=
  match l with
  | [] => d
  | x :: l => counter_loop (put x (S (match get x d with Some n => n | None => 0%nat end)) d) l
  end.
Definition counter (l : list string) : list (string * nat) := counter_loop [] l.

(* 83-104. n_seqs is batch_size / n_per_seq, rounded up *)
Definition choose_sequences (c : sampler) (D : dataset) (n_seqs : Z) : nd (list string) :=
  if category_aware c then
    cats <~ capped_random_choice (map fst (category_to_names D)) n_seqs true ;;;
    chosen <~ nmap (fun p => match get (fst p) (category_to_names D) with
                             | Some names => capped_random_choice names (Z.of_nat (snd p)) false
                             | None => nret (Fail EIndex) end) (counter cats) ;;;
    nret (Ok (concat chosen))
  else capped_random_choice (seq_names D) n_seqs false.
(* 106-126: the frames of one sequence *)
Definition choose_frames (c : sampler) (D : dataset) (n : Z) (name : string) : nd (list nat) :=
  if sample_consecutive_frames c then
    index <~ nret (build_segment_index c D name n) ;;;
    i <~ np_randint (length index) ;;;
    match nth_error index i with
    | None => nret (Fail EIndex)
    | Some (segment, idx) =>
        if (Z.of_nat (length segment) <=? n)%Z then nret (Ok segment)
        else let start := Z.min (Z.max (Z.of_nat idx - n / 2) 0) (Z.of_nat (length segment) - n) in
             nret (Ok (firstn (Z.to_nat n) (skipn (Z.to_nat start) segment)))
    end
  else capped_random_choice (indices_of D name) n false.
(* 82-131. Non-positive numbers of images per sequence end in a ValueError of NumPy. The flag says that NumPy makes the
   indices floating point numbers: it does when one of the concatenated lists is empty. *)
Record batch := { b_frames : list nat; b_floats : bool }.
Definition sample_batch (c : sampler) (D : dataset) : nd batch :=
  n <~ np_choice1 (images_per_seq_options c) ;;;
  if (n <=? 0)%Z then nret (Fail EValue)
  else
    let n_seqs := (- (- batch_size c / n))%Z in
    chosen <~ choose_sequences c D n_seqs ;;;
    runs <~ nmap (choose_frames c D n) chosen ;;;
    match runs with
    | [] => nret (Fail EValue)                                                         (* np.concatenate([]) *)
    | _ => nret (Ok {| b_frames := firstn (Z.to_nat (batch_size c)) (concat runs); b_floats := existsb (fun r => (length r =? 0)%nat) runs |})
    end.

(* ---- a dataset kept as a list of frame annotations ---- *)
Record annotation := { a_seq : string; a_no : Z; a_ts : R; a_subset : option string }.
(* json_index_dataset.py 628-634 *)
Definition seq_to_idx (anns : list annotation) : list (string * list nat) :=
  fold_left (fun d p => put (a_seq (snd p)) (match get (a_seq (snd p)) d with Some l => l | None => [] end ++ [fst p]) d) (combine (seq 0 (length anns)) anns) [].
(* 641-657; `not in subset_filter` *)
Definition numbers_and_timestamps (anns : list annotation) (idxs : list nat) (flt : option (list string)) : result (list (Z * R)) :=
  l <- rmap (fun i => match nth_error anns i with
                      | None => Fail EIndex
                      | Some a => if match flt with None => true | Some fs => match a_subset a with Some s => existsb (String.eqb s) fs | None => false end end
                                  then Ok [(a_no a, a_ts a)] else Ok [] end) idxs ;;
  Ok (concat l).
Definition stamp_ltb (a b : stamp) : bool :=
  Rltb (f_ts a) (f_ts b) || (Reqb (f_ts a) (f_ts b) && ((f_no a <? f_no b)%Z || ((f_no a =? f_no b)%Z && (f_idx a <? f_idx b)%nat))).
Fixpoint insert_stamp (x : stamp) (l : list stamp) : list stamp :=
  match l with [] => [x] | y :: l => if stamp_ltb y x then y :: insert_stamp x l else x :: y :: l end.
Definition sorted_stamps (l : list stamp) : list stamp := fold_right insert_stamp [] l.
(* dataset_base.py 107-134; an unknown sequence has no frames (defaultdict) *)
Definition frames_in_order (anns : list annotation) (name : string) (flt : option (list string)) : result (list stamp) :=
  let idxs := match get name (seq_to_idx anns) with Some l => l | None => [] end in
  nt <- numbers_and_timestamps anns idxs flt ;;
  Ok (sorted_stamps (map (fun p => (snd (snd p), fst (snd p), fst p)) (combine idxs nt))).
(* the dataset the sampler sees; seq_annots (json_index_dataset.py 659-664) maps sequence names to categories *)
Definition category_names (seq_annots : list (string * string)) : list (string * list string) :=
  fold_left (fun d p => put (snd p) (match get (snd p) d with Some l => l | None => [] end ++ [fst p]) d) seq_annots [].
Definition json_dataset (anns : list annotation) (seq_annots : list (string * string)) : dataset :=
  {| seq_names := map fst (seq_to_idx anns);
     frames_of := fun name => match frames_in_order anns name None with Ok l => l | Fail _ => [] end;
     category_to_names := category_names seq_annots |}.
