(* Vocabulary for the batches of frames. *)
From Coq Require Import ZArith Reals String Bool Permutation.
From Verif Require Import Base RBase SceneSampler.
Local Open Scope list_scope.

(* no frame has two positions, no sequence is listed twice, no sequence is in two categories *)
Definition well_formed (D : dataset) : Prop :=
  NoDup (seq_names D) /\
  (forall name, NoDup (indices_of D name)) /\
  (forall n1 n2 i, In i (indices_of D n1) -> In i (indices_of D n2) -> n1 = n2) /\
  NoDup (map fst (category_to_names D)) /\
  NoDup (concat (map snd (category_to_names D))).
(* consecutive frames within the limits; a limit that is not positive is off *)
Definition close (gap : Z) (gap_s : R) (a b : stamp) : Prop :=
  ((0 < gap)%Z -> (f_no b - f_no a <= gap)%Z) /\ ((0 < gap_s)%R -> (f_ts b - f_ts a <= gap_s)%R).
Fixpoint chain {A} (P : A -> A -> Prop) (l : list A) : Prop :=
  match l with a :: (b :: _) as l' => P a b /\ chain P l' | _ => True end.
(* cut where, and only where, a limit is exceeded *)
Definition is_split (gap : Z) (gap_s : R) (l : list stamp) (segs : list (list stamp)) : Prop :=
  concat segs = l /\ List.Forall (fun s => s <> [] /\ chain (close gap gap_s) s) segs /\
  chain (fun s s' => forall before x y after, s = before ++ [x] -> s' = y :: after -> ~ close gap gap_s x y) segs.
(* the order of a video: numbers from 0, time from 0, and numbers growing where there is no time *)
Definition playable (l : list stamp) : Prop :=
  List.Forall (fun f => (0 <= f_no f)%Z /\ (0 <= f_ts f)%R) l /\ chain (fun a b => (f_ts b <= 0)%R -> (f_no a < f_no b)%Z) l.
Definition limits_on (c : sampler) : Prop := (0 < max_gap c)%Z \/ (0 < max_gap_seconds c)%R.
(* a piece of a list *)
Definition piece {A} (r l : list A) : Prop := exists pre post, l = pre ++ r ++ post.
(* what one sequence may contribute: n frames, or all when there are fewer *)
Definition contribution (c : sampler) (D : dataset) (n : Z) (name : string) (r : list nat) : Prop :=
  if sample_consecutive_frames c then
    exists segment, piece r (map f_idx segment) /\ Z.of_nat (length r) = Z.min n (Z.of_nat (length segment)) /\
      piece segment (frames_of D name) /\
      (limits_on c -> exists segs, is_split (max_gap c) (max_gap_seconds c) (frames_of D name) segs /\ In segment segs /\
                      ((Z.of_nat (length segment) < n)%Z -> List.Forall (fun s => (length s <= length segment)%nat) segs)) /\
      (~ limits_on c -> segment = frames_of D name)
  else NoDup r /\ incl r (indices_of D name) /\ Z.of_nat (length r) = Z.min n (Z.of_nat (length (indices_of D name))).
Definition rounded_up (a b k : Z) : Prop := (b * (k - 1) < a <= b * k)%Z.
(* the frames a list of annotations has for a sequence *)
Definition annotated (anns : list annotation) (name : string) (f : stamp) : Prop :=
  exists a, nth_error anns (f_idx f) = Some a /\ a_seq a = name /\ a_no a = f_no f /\ a_ts a = f_ts f.
(* time, then number, then index *)
Definition before (a b : stamp) : Prop :=
  (f_ts a < f_ts b)%R \/ f_ts a = f_ts b /\ ((f_no a < f_no b)%Z \/ f_no a = f_no b /\ (f_idx a < f_idx b)%nat).
(* the sequences the sampler draws from *)
Definition known (D : dataset) (c : sampler) : list string := if category_aware c then concat (map snd (category_to_names D)) else seq_names D.
(* how many frames a sequence can give at once *)
Definition offers (c : sampler) (D : dataset) (n : Z) (name : string) : Prop :=
  if sample_consecutive_frames c then
    (limits_on c -> forall segs, is_split (max_gap c) (max_gap_seconds c) (frames_of D name) segs -> exists s, In s segs /\ (n <= Z.of_nat (length s))%Z) /\
    (~ limits_on c -> (n <= Z.of_nat (length (frames_of D name)))%Z)
  else (n <= Z.of_nat (length (frames_of D name)))%Z.
(* everything a batch needs is there *)
Definition ready (c : sampler) (D : dataset) : Prop :=
  List.Forall (fun n => 0 < n)%Z (images_per_seq_options c) /\ images_per_seq_options c <> [] /\ (0 < batch_size c)%Z /\
  (if category_aware c then category_to_names D <> [] /\ NoDup (map fst (category_to_names D)) /\ List.Forall (fun p => snd p <> []) (category_to_names D) else seq_names D <> []) /\
  (sample_consecutive_frames c = true -> forall name, In name (known D c) -> frames_of D name <> [] /\ (limits_on c -> (0 <= max_gap c)%Z /\ playable (frames_of D name))).
(* a subset filter keeps the frames whose subset it names *)
Definition kept_by (fs : list string) (a : annotation) : bool := match a_subset a with Some s => existsb (String.eqb s) fs | None => false end.
