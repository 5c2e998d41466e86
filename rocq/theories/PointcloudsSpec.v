(* What a batch of point clouds is, what every accessor of a Pointclouds object answers and what
   every operation does, in terms of the batch alone (no caches). A point carries its normal and
   its features with it. *)
From Verif Require Import Base Packing RBase Geom FaceAreas Meshes MeshesSpec MeshesHistSpec Pointclouds.
Local Open Scope nat_scope.

Section Features.
Variable F : Type.
Variable fzero : F.

Record row := Row { pos : vec3; nor : option vec3; fea : option F }.
Definition cloud := list row.
Definition sizes (b : list cloud) : list nat := map (@length row) b.
Definition largest (b : list cloud) : nat := max_nat (sizes b).
Definition points_of (b : list cloud) : list (list vec3) := map (map pos) b.
(* o holds the normals (the features) of the batch: one for every point, or there are none *)
Definition column {A} (f : row -> option A) (b : list cloud) (o : option (list (list A))) : Prop :=
  match o with
  | Some ls => Forall2 (fun c l => map f c = map Some l) b ls
  | None => Forall (Forall (fun r => f r = None)) b
  end.
Definition has_a_point (b : list cloud) : Prop := exists c, In c b /\ c <> [].
Definition uniform (b : list cloud) : Prop := (exists o, column nor b o) /\ (exists o, column fea b o).

(* a batch, and what stands in the padding of the padded tensors *)
Record cstate := CS { clouds : list cloud; ppad : list (list vec3); npad : list (list vec3); fpad : list (list F) }.
Definition of_lists (b : list cloud) : cstate :=
  CS b (tails (largest b) (V3 0 0 0)%R (sizes b)) (tails (largest b) (V3 0 0 0)%R (sizes b)) (tails (largest b) fzero (sizes b)).

(* ---- accessors ---- *)
Inductive cquery :=
| QLength | QCloudValid | QNoPoints | QPointsList | QNormalsList | QFeaturesList | QNumPoints
| QPointsPacked | QNormalsPacked | QFeaturesPacked | QPackedToCloud | QCloudToFirst
| QPointsPadded | QNormalsPadded | QFeaturesPadded | QPadToPacked.
Inductive canswer :=
| CNats (l : list nat) | CInts (l : list Z) | CBools (l : list bool)
| CLists (l : list (list vec3)) | CRows (l : list vec3) | CPad (p : padded vec3)
| CNormLists (o : option (list (list vec3))) | CNormRows (o : option (list vec3)) | CNormPad (o : option (padded vec3))
| CFeatLists (o : option (list (list F))) | CFeatRows (o : option (list F)) | CFeatPad (o : option (padded F)).

(* the harness: calls the accessor *)
Definition cask (q : cquery) (c : pointclouds F) : result (canswer * pointclouds F) :=
  let as_ {T} (f : T -> canswer) (r : result (T * pointclouds F)) := x <- r ;; Ok (f (fst x), snd x) in
  match q with
  | QLength => Ok (CNats [cN F c], c)
  | QCloudValid => Ok (CBools (cvalid F c), c)
  | QNoPoints => Ok (CBools [no_points F c], c)
  | QPointsList => as_ CLists (points_list F c)
  | QNormalsList => as_ CNormLists (normals_list F c)
  | QFeaturesList => as_ CFeatLists (features_list F c)
  | QNumPoints => Ok (CNats (num_points_per_cloud F c), c)
  | QPointsPacked => as_ CRows (points_packed F c)
  | QNormalsPacked => as_ CNormRows (normals_packed F c)
  | QFeaturesPacked => as_ CFeatRows (features_packed F c)
  | QPackedToCloud => as_ CInts (packed_to_cloud_idx F c)
  | QCloudToFirst => as_ CNats (cloud_to_packed_first_idx F c)
  | QPointsPadded => as_ CPad (points_padded F fzero c)
  | QNormalsPadded => as_ CNormPad (normals_padded F fzero c)
  | QFeaturesPadded => as_ CFeatPad (features_padded F fzero c)
  | QPadToPacked => as_ CNats (padded_to_packed_idx F c)
  end.

Definition ctell (q : cquery) (a : cstate) (r : canswer) : Prop :=
  let b := clouds a in
  match q, r with
  | QLength, CNats l => l = [length b]
  | QCloudValid, CBools l => l = map (fun c => negb (length c =? 0)) b
  | QNoPoints, CBools l => l = [false]
  | QPointsList, CLists l => l = points_of b
  | QNormalsList, CNormLists o => column nor b o
  | QFeaturesList, CFeatLists o => column fea b o
  | QNumPoints, CNats l => l = sizes b
  | QPointsPacked, CRows l => l = concat (points_of b)
  | QNormalsPacked, CNormRows o => exists o', column nor b o' /\ o = option_map (@concat vec3) o'
  | QFeaturesPacked, CFeatRows o => exists o', column fea b o' /\ o = option_map (@concat F) o'
  | QPackedToCloud, CInts l => l = owners 0 (sizes b)
  | QCloudToFirst, CNats l => l = map (fun i => sum_nat (firstn i (sizes b))) (seq 0 (length b))
  | QPointsPadded, CPad p => p = Pad (largest b) (zip_app (points_of b) (ppad a))
  | QNormalsPadded, CNormPad o => exists o', column nor b o' /\
      o = option_map (fun ls => Pad (largest b) (zip_app ls (npad a))) o'
  | QFeaturesPadded, CFeatPad o => exists o', column fea b o' /\
      o = option_map (fun ls => Pad (largest b) (zip_app ls (fpad a))) o'
  | QPadToPacked, CNats l => l = concat (map (fun i => seq (i * largest b) (nth i (sizes b) 0)) (seq 0 (length b)))
  | _, _ => False
  end.

(* ---- operations that continue with a (possibly new) object ---- *)
Inductive cop :=
| CAsk (q : cquery) | COffset (o : offset) | CScale (s : scale_arg) | CClone
| CUpdate (np : padded vec3) (nn : option (padded vec3)) (nf : option (padded F))
| CPadUpdate (np : padded vec3) (nn : option (padded vec3)) (nf : option (padded F))
| CSelect (ix : mindex) | CExtend (n : Z) | CSubsample (mx : max_arg) (keeps : list (list nat))
| CAssign (est : padded vec3).

Definition capply (o : cop) (c : pointclouds F) : result (pointclouds F) :=
  match o with
  | CAsk q => x <- cask q c ;; Ok (snd x)
  | COffset o => cloud_offset_ F o c
  | CScale s => cloud_scale_ F s c
  | CClone => x <- cloud_clone F c ;; Ok (fst x)
  | CUpdate np nn nf => cloud_update F np nn nf c
  | CPadUpdate np nn nf => x <- points_padded F fzero c ;; cloud_update F np nn nf (snd x)
  | CSelect ix => x <- cloud_getitem F ix c ;; Ok (fst x)
  | CExtend n => x <- cloud_extend F n c ;; Ok (fst x)
  | CSubsample mx keeps => x <- subsample F mx keeps c ;; Ok (fst x)
  | CAssign est => assign_normals F fzero est c
  end.

(* the point moves, its normal and features stay with it *)
Definition move_to (g : vec3 -> vec3) (r : row) : row := Row (g (pos r)) (nor r) (fea r).
Fixpoint move_all (l : list vec3) (b : list cloud) : list cloud :=
  match b with
  | [] => []
  | c :: b' => map (fun q => move_to (fun x => add3 x (snd q)) (fst q)) (combine c (firstn (length c) l))
               :: move_all (skipn (length c) l) b'
  end.
Definition cscales (s : scale_arg) (b : list cloud) : list R :=
  match s with OneScale x => repeat x (length b) | AllScales l => l end.

(* a padded tensor of the right shape: its first rows replace a component, the rest is padding *)
Definition fits {A} (p : padded A) (b : list cloud) : Prop :=
  length (rows p) = length b /\ dim1 p = largest b /\ Forall (fun r => length r = dim1 p) (rows p).
Definition put {A} (g : A -> row -> row) (p : padded A) (b : list cloud) : list cloud :=
  map (fun q => map (fun z => g (fst z) (snd z)) (combine (fst q) (snd q))) (combine (rows p) b).
Definition rest {A} (p : padded A) (b : list cloud) : list (list A) :=
  map (fun q => skipn (length (snd q)) (fst q)) (combine (rows p) b).
Definition put_pos (x : vec3) (r : row) : row := Row x (nor r) (fea r).
Definition put_nor (x : vec3) (r : row) : row := Row (pos r) (Some x) (fea r).
Definition put_fea (x : F) (r : row) : row := Row (pos r) (nor r) (Some x).
Definition updated (np : padded vec3) (nn : option (padded vec3)) (nf : option (padded F)) (a : cstate) : cstate :=
  let b := clouds a in
  let b1 := put put_pos np b in
  let b2 := match nn with Some p => put put_nor p b1 | None => b1 end in
  let b3 := match nf with Some p => put put_fea p b2 | None => b2 end in
  CS b3 (rest np b) (match nn with Some p => rest p b | None => npad a end)
        (match nf with Some p => rest p b | None => fpad a end).
Definition fits_opt {A} (o : option (padded A)) (b : list cloud) : Prop := forall p, o = Some p -> fits p b.

(* c' keeps the points of c at the positions keep: all of them if there are at most mx, otherwise
   mx of them, each at most once *)
Definition sampled (mx : nat) (keep : list nat) (c c' : cloud) : Prop :=
  (length c <= mx /\ c' = c) \/
  (mx < length c /\ length keep = mx /\ NoDup keep /\ Forall2 (fun i r => nth_error c i = Some r) keep c').
Inductive sampled_all : list nat -> list (list nat) -> list cloud -> list cloud -> Prop :=
| sampled_none : sampled_all [] [] [] []
| sampled_one m mx k keeps c b c' b' : sampled m k c c' -> sampled_all mx keeps b b' ->
    sampled_all (m :: mx) (k :: keeps) (c :: b) (c' :: b').
Definition maxima (mx : max_arg) (b : list cloud) : list nat :=
  match mx with MaxOne k => repeat k (length b) | MaxEach l => l end.

Definition cdoes (o : cop) (a a' : cstate) : Prop :=
  let b := clouds a in
  match o with
  | CAsk _ | CClone => a' = a
  | COffset (OneOffset v) => a' = CS (map (map (move_to (fun x => add3 x v))) b) (ppad a) (npad a) (fpad a)
  | COffset (AllOffsets l) => length l = sum_nat (sizes b) /\ a' = CS (move_all l b) (ppad a) (npad a) (fpad a)
  | CScale s => length b <= length (cscales s b) /\
      a' = CS (map (fun q => map (move_to (scal3 (fst q))) (snd q)) (combine (cscales s b) b)) (ppad a) (npad a) (fpad a)
  | CUpdate np nn nf =>     (* without new normals (features) the cloud must not have any *)
      fits np b /\ fits_opt nn b /\ fits_opt nf b /\
      (nn = None -> column nor b None) /\ (nf = None -> column fea b None) /\ a' = updated np nn nf a
  | CPadUpdate np nn nf =>  (* points_padded() was called before: normals and features are kept *)
      fits np b /\ fits_opt nn b /\ fits_opt nf b /\ a' = updated np nn nf a
  | CSelect ix => exists b', selected ix b b' /\ has_a_point b' /\ a' = of_lists b'
  | CExtend n => (0 < n)%Z /\ a' = of_lists (flat_map (fun c => repeat c (Z.to_nat n)) b)
  | CSubsample mx keeps => exists b', sampled_all (maxima mx b) keeps b b' /\ has_a_point b' /\
      ((b' = b /\ Forall2 (fun c m => length c <= m) b (maxima mx b) /\ a' = a) \/
       (~ Forall2 (fun c m => length c <= m) b (maxima mx b) /\ a' = of_lists b'))
  | CAssign est => fits est b /\ a' = CS (put put_nor est b) (ppad a) (rest est b) (fpad a)
  end.
Inductive chistory : list cop -> cstate -> cstate -> Prop :=
| cdone a : chistory [] a a
| cstep o os a a' a'' : cdoes o a a' -> chistory os a' a'' -> chistory (o :: os) a a''.
Fixpoint crun (os : list cop) (c : pointclouds F) : result (pointclouds F) :=
  match os with [] => Ok c | o :: os' => c' <- capply o c ;; crun os' c' end.
(* whatever is done with c, every accessor answers as the state it stands for says *)
Definition cbehaves (c : pointclouds F) (a : cstate) : Prop :=
  forall os a', chistory os a a' -> exists c', crun os c = Ok c' /\
    forall q, exists r c'', cask q c' = Ok (r, c'') /\ ctell q a' r.

(* the arguments a batch is given as: lists, or padded tensors of full clouds *)
Definition list_arg {A} (f : row -> option A) (b : list cloud) (g : aux_arg A) : Prop :=
  (g = GNone /\ column f b None) \/ (exists l, g = GList l /\ exists ls, column f b (Some ls) /\
     Forall2 (fun x o => o = Some x \/ (x = [] /\ o = None)) ls l).
Definition pad_arg {A} (f : row -> option A) (b : list cloud) (g : aux_arg A) : Prop :=
  (g = GNone /\ column f b None) \/ (exists ls, column f b (Some ls) /\ g = GPad (Pad (largest b) ls)).
Definition full_batch (b : list cloud) : Prop := forall c, In c b -> length c = largest b.
Definition no_pad (b : list cloud) : cstate :=
  CS b (map (fun _ => []) b) (map (fun _ => []) b) (map (fun _ => []) b).

(* objects made by a constructor and used in any way *)
Inductive creachable : pointclouds F -> cstate -> Prop :=
| made_lists b gn gf c : has_a_point b -> list_arg nor b gn -> list_arg fea b gf ->
    new_clouds F (points_of b) gn gf = Ok c -> creachable c (of_lists b)
| made_padded b gn gf c : has_a_point b -> full_batch b -> pad_arg nor b gn -> pad_arg fea b gf ->
    new_clouds_padded F (Pad (largest b) (points_of b)) gn gf = Ok c -> creachable c (no_pad b)
| used o c a c' a' : creachable c a -> cdoes o a a' -> capply o c = Ok c' -> creachable c' a'.

(* the lists a Pointclouds object shows; this also makes sense without any point *)
Definition cshows (c : pointclouds F) (b : list cloud) : Prop :=
  exists c1 c2 c3 n f, points_list F c = Ok (points_of b, c1) /\
    normals_list F c = Ok (n, c2) /\ column nor b n /\ features_list F c = Ok (f, c3) /\ column fea b f.

Definition inside (b : vec3 * vec3) (p : vec3) : Prop :=
  (x3 (fst b) <= x3 p <= x3 (snd b) /\ y3 (fst b) <= y3 p <= y3 (snd b) /\ z3 (fst b) <= z3 p <= z3 (snd b))%R.
Definition proper_box (b : vec3 * vec3) : Prop :=
  (x3 (fst b) <= x3 (snd b) /\ y3 (fst b) <= y3 (snd b) /\ z3 (fst b) <= z3 (snd b))%R.
Definition boxes_for (g : box_arg) (b : list cloud) : list (vec3 * vec3) :=
  match g with BoxOne x => repeat x (length b) | BoxEach [x] => repeat x (length b) | BoxEach l => l end.
End Features.
