(* Vocabulary of property C80: where the pixels of an image are. *)
From Verif Require Import Base RBase Geom Textures VertAlign.
Local Open Scope R_scope.

(* g is the normalised coordinate of the position x (a real number of pixels from the first pixel's centre)
   along a side of n pixels: with align_corners the centres of the first and last pixel are at -1 and 1, without
   it the outer edges are *)
Definition position (align : bool) (n : Z) (g x : R) : Prop :=
  if align then g * IZR (n - 1) = 2 * x - IZR (n - 1) else g * IZR n = 2 * x + 1 - IZR n.
(* x lies between the centres of the first and the last pixel *)
Definition among (n : Z) (x : R) : Prop := 0 <= x <= IZR (n - 1).
Definition on_image (m : tmap) (r c : Z) : Prop := (0 <= r < mh m)%Z /\ (0 <= c < mw m)%Z.
(* the images of all channels of all features for batch element n, in order *)
Definition channels_of (feats : list feature) (n : nat) : list tmap :=
  flat_map (fun f => match f with Maps _ images => nth n images [] | BadRank => [] end) feats.
(* feats fit a batch of n: right rank, right batch size, non-empty images, the stated number of channels *)
Definition fitting (n : nat) (feats : list feature) : Prop :=
  feats <> [] /\
  forall f, In f feats -> exists c images, f = Maps c images /\ length images = n /\ (0 < c)%nat /\
    forall l, In l images -> length l = c /\ forall m, In m l -> (0 < mh m)%Z /\ (0 < mw m)%Z.
(* the features of a vertex: its own image sampled at its own x and y *)
Definition features_at (align : bool) (mode : pad_mode) (im : interp_mode) (feats : list feature) (n : nat) (v : vec3) : list R :=
  map (fun m => grid_sample align mode im m (x3 v) (y3 v)) (channels_of feats n).
Fixpoint number_from {A : Type} (k : nat) (l : list A) : list (nat * A) :=
  match l with [] => [] | a :: l => (k, a) :: number_from (S k) l end.
