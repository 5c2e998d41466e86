(* The chamfer distance of two batches of clouds, from the definition. *)
From Coq Require Import Reals Bool.
From Verif Require Import Base RBase KnnSpec Chamfer.
Local Open Scope R_scope.

(* absolute distance, or squared Euclidean distance *)
Definition distance (norm : nat) (p q : list R) : R := if (norm =? 1)%nat then dist_L1 p q else dist_L2sq p q.
(* the smallest of the distances from p to the points of a cloud; 0 for an empty cloud *)
Definition nearest (norm : nat) (cloud : list (list R)) (p : list R) : R :=
  match map (distance norm p) cloud with [] => 0 | d :: ds => fold_left Rmin ds d end.
Definition one_way (r : point_red) (norm : nat) (a b : list (list R)) : R :=
  match r with
  | PSum => rsum (map (nearest norm b) a)
  | PMean => rsum (map (nearest norm b) a) / INR (Nat.max (length a) 1)
  | PMax => fold_left Rmax (map (nearest norm b) a) 0
  end.
Definition both_ways (r : point_red) (norm : nat) (single : bool) (a b : list (list R)) : R :=
  if single then one_way r norm a b
  else match r with PMax => Rmax (one_way r norm a b) (one_way r norm b a) | _ => one_way r norm a b + one_way r norm b a end.
(* the losses of the pairs of a batch, weighted *)
Definition pair_losses (r : point_red) (norm : nat) (single : bool) (w : option (list R)) (ab : list (list (list R) * list (list R))) : list R :=
  match w with
  | None => map (fun p => both_ways r norm single (fst p) (snd p)) ab
  | Some w => map (fun q => fst q * both_ways r norm single (fst (snd q)) (snd (snd q))) (combine w ab)
  end.
Definition reduced (b : option batch_red) (w : option (list R)) (l : list R) : loss :=
  match b with
  | None => One (V l)
  | Some BSum => Scalar (rsum l)
  | Some BMean => Scalar (rsum l / match w with None => INR (Nat.max (length l) 1) | Some w => rsum w end)
  end.
(* a batch as the caller sees it: the clouds without their padding *)
Definition clouds (x : tensor3) (lengths : list nat) : list (list (list R)) := map (fun q => firstn (fst q) (snd q)) (combine lengths (t_data x)).
Definition well_shaped (x : tensor3) (lengths : list nat) : Prop :=
  length lengths = length (t_data x) /\ List.Forall (fun l => (l <= t_points x)%nat) lengths /\
  List.Forall (fun c => length c = t_points x /\ List.Forall (fun p => length p = t_dim x) c) (t_data x).
Definition fine_weights (w : option (list R)) (n : nat) : Prop :=
  match w with None => True | Some w => length w = n /\ List.Forall (fun a => 0 <= a) w /\ rsum w <> 0 end.
(* x and y are a batch of pairs *)
Definition matching (x y : tensor3) : Prop := length (t_data x) = length (t_data y) /\ t_dim x = t_dim y.
(* a maximum needs something to range over *)
Definition max_defined (r : point_red) (single : bool) (x y : tensor3) : Prop :=
  r = PMax -> (0 < t_points x)%nat /\ (single = false -> (0 < t_points y)%nat).
(* the tensor and the sizes an argument stands for: sizes given, full clouds, or a Pointclouds object *)
Definition shown (p : input) (ol : option (list nat)) (x : tensor3) (l : list nat) : Prop :=
  match p with
  | FromTensor x' => x' = x /\ match ol with Some l' => l' = l /\ l <> [] | None => l = repeat (t_points x) (length (t_data x)) end
  | FromClouds x' l' n => x' = x /\ l' = l /\ n = None
  end.
(* ---- normals ---- *)
Definition normal_term (abs_cosine : bool) (u v : list R) : R := 1 - (if abs_cosine then Rabs (cosine u v) else cosine u v).
(* js lists for every point of a one of its nearest points in b *)
Definition nearest_picks (norm : nat) (a b : list (list R)) (js : list nat) : Prop :=
  length js = length a /\ forall i, (i < length a)%nat -> (nth i js 0 < length b)%nat /\
    distance norm (nth i a []) (nth (nth i js 0%nat) b []) = nearest norm b (nth i a []).
Definition normals_one_way (r : point_red) (ab : bool) (na nb : list (list R)) (js : list nat) : R :=
  let total := rsum (map (fun p => normal_term ab (fst p) (nth (snd p) nb [])) (combine na js)) in
  match r with PMean => total / INR (Nat.max (length na) 1) | _ => total end.
Record scene := { s_a : list (list R); s_b : list (list R); s_na : list (list R); s_nb : list (list R); s_ja : list nat; s_jb : list nat }.
Definition normals_both (r : point_red) (ab single : bool) (s : scene) : R :=
  if single then normals_one_way r ab (s_na s) (s_nb s) (s_ja s)
  else normals_one_way r ab (s_na s) (s_nb s) (s_ja s) + normals_one_way r ab (s_nb s) (s_na s) (s_jb s).
Definition cut_normals (n : list (list (list R))) (lengths : list nat) : list (list (list R)) := map (fun q => firstn (fst q) (snd q)) (combine lengths n).
Definition shown_with (p : input) (ol : option (list nat)) (on : option (list (list (list R)))) (x : tensor3) (l : list nat) (n : list (list (list R))) : Prop :=
  match p with
  | FromTensor x' => x' = x /\ on = Some n /\ match ol with Some l' => l' = l /\ l <> [] | None => l = repeat (t_points x) (length (t_data x)) end
  | FromClouds x' l' n' => x' = x /\ l' = l /\ n' = Some n
  end.
Definition normals_fit (x : tensor3) (n : list (list (list R))) : Prop := length n = length (t_data x) /\ List.Forall (fun c => length c = t_points x) n.
(* the batch as a list of scenes *)
Definition batch_of (norm : nat) (single : bool) (x y : tensor3) (xl yl : list nat) (xn yn : list (list (list R))) (T : list scene) : Prop :=
  map s_a T = clouds x xl /\ map s_b T = clouds y yl /\ map s_na T = cut_normals xn xl /\ map s_nb T = cut_normals yn yl /\
  List.Forall (fun s => nearest_picks norm (s_a s) (s_b s) (s_ja s) /\ (single = false -> nearest_picks norm (s_b s) (s_a s) (s_jb s))) T.
Definition weighted_by (w : option (list R)) (l : list R) : list R := match w with None => l | Some w => map (fun q => fst q * snd q) (combine w l) end.
(* losses of the single points, padded to P, of every pair of a batch *)
Definition point_row (norm P : nat) (a b : list (list R)) : list R := map (nearest norm b) a ++ repeat 0 (P - length a).
Definition point_losses (norm P : nat) (w : option (list R)) (ab : list (list (list R) * list (list R))) : list (list R) :=
  match w with
  | None => map (fun p => point_row norm P (fst p) (snd p)) ab
  | Some w => map (fun q => map (fun d => d * fst q) (point_row norm P (fst (snd q)) (snd (snd q)))) (combine w ab)
  end.
Definition weight_of (w : option (list R)) (n : nat) : R := match w with None => 1 | Some w => nth n w 0 end.
