(* What a rasterizer must report for one pixel, independently of how it finds it. *)
From Verif Require Import Base RBase Geom Raster.
Local Open Scope R_scope.

(* (depth, index) order *)
Definition before (a b : R * nat) : Prop := fst a < fst b \/ (fst a = fst b /\ (snd a < snd b)%nat).

Definition hits {X} (hit : nat -> option (R * X)) (prims : list nat) : list nat :=
  filter (fun i => match hit i with Some _ => true | None => false end) prims.

(* [hit i] is the depth and payload of primitive i at the pixel, if it covers the pixel.
   idx/zs/pay are the K output slots of the pixel: primitive index, depth, payload. *)
Record pixel_topk {X} (pad : X) (hit : nat -> option (R * X)) (prims : list nat) (K : nat)
    (idx : list Z) (zs : list R) (pay : nat -> X) : Prop := {
  pk_len_i : length idx = K;
  pk_len_z : length zs = K;
  (* the first min(K, #hits) slots report hits, with their depth and payload *)
  pk_valid : forall k, (k < Nat.min K (length (hits hit prims)))%nat ->
     exists i, nth k idx (-1)%Z = Z.of_nat i /\ In i prims /\ hit i = Some (nth k zs (-1), pay k);
  (* in ascending (depth, index) order, in particular no primitive twice *)
  pk_sorted : forall k l, (k < l)%nat -> (l < Nat.min K (length (hits hit prims)))%nat ->
     before (nth k zs (-1), Z.to_nat (nth k idx (-1)%Z)) (nth l zs (-1), Z.to_nat (nth l idx (-1)%Z));
  (* a hit that is not reported comes after all reported ones *)
  pk_best : forall i z x, In i prims -> hit i = Some (z, x) ->
     (exists k, (k < Nat.min K (length (hits hit prims)))%nat /\ nth k idx (-1)%Z = Z.of_nat i) \/
     (forall k, (k < Nat.min K (length (hits hit prims)))%nat ->
        before (nth k zs (-1), Z.to_nat (nth k idx (-1)%Z)) (z, i));
  (* all other slots hold the padding *)
  pk_pad : forall k, (Nat.min K (length (hits hit prims)) <= k < K)%nat ->
     nth k idx (-1)%Z = (-1)%Z /\ nth k zs (-1) = -1 /\ pay k = pad }.

(* the depths of the hits are pairwise distinct *)
Definition distinct_depths {X} (hit : nat -> option (R * X)) (prims : list nat) : Prop :=
  forall i j z x y, In i prims -> In j prims -> hit i = Some (z, x) -> hit j = Some (z, y) -> i = j.

(* loss whose gradient the backward pass of the point rasterizer computes: every slot up to the
   first empty one contributes gz * depth + gd * squared distance to the pixel centre p *)
Definition sq_xy (p : vec2) (v : vec3) : R := (x3 v - x2 p) ^ 2 + (y3 v - y2 p) ^ 2.
Fixpoint points_loss (p : vec2) (pts : nat -> vec3) (row : list (Z * R * R)) : R :=
  match row with
  | [] => 0
  | (idx, gz, gd) :: row' =>
      if (idx <? 0)%Z then 0
      else gz * z3 (pts (Z.to_nat idx)) + gd * sq_xy p (pts (Z.to_nat idx)) + points_loss p pts row'
  end.

(* the primitives of [start, stop) a bin has to list, and the number of chunks covering E primitives *)
Definition listed (bs H W : Z) (bboxes : nat -> bbox) (start stop : nat) (by_ bx : Z) : list nat :=
  filter (fun e => negb (b_skip (bboxes e)) && cuda_overlap bs H W (bboxes e) by_ bx) (seq start (stop - start)).

Definition num_chunks (E cs : nat) : nat := (1 + (E - 1) / cs)%nat.
