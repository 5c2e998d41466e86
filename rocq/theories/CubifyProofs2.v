(* cubify: the emitted triangles are the surface, and the surface is closed. *)
From Coq Require Import Lra.
From Verif Require Import Base Packing RBase Geom FaceAreas MeshesSpec Meshes Subdivide SubdivideProofs Cubify CubifySpec CubifyProofs.
Local Open Scope nat_scope.

Definition pt_dec (p q : pt) : {p = q} + {p <> q}.
Proof. destruct p as ((a, b), c), q as ((d, e), f). destruct (Z.eq_dec a d), (Z.eq_dec b e), (Z.eq_dec c f); subst; [left; reflexivity|right; congruence..]. Defined.
Lemma plus_assoc p q r : plus (plus p q) r = plus p (plus q r).
Proof. destruct p as ((a, b), c), q as ((d, e), f), r as ((g, h), i). cbn. f_equal; [f_equal|]; lia. Qed.
Lemma plus_0 p : plus p (0, 0, 0)%Z = p.
Proof. destruct p as ((a, b), c). cbn. f_equal; [f_equal|]; lia. Qed.

Definition tri0 (k : nat) : tri := let '(a, b, c) := nth k cube_faces (0, 0, 0) in (nth a cube_verts (0, 0, 0)%Z, nth b cube_verts (0, 0, 0)%Z, nth c cube_verts (0, 0, 0)%Z).
Definition tri_at (v : pt) (k : nat) : tri := let '(a, b, c) := tri0 k in (plus v a, plus v b, plus v c).

(* ---- signed edge counts ---- *)
Section Net.
Variables u v : pt.
Definition eps (a b : pt) : Z :=
  ((if pt_dec a u then if pt_dec b v then 1 else 0 else 0) - (if pt_dec a v then if pt_dec b u then 1 else 0 else 0))%Z.
Lemma eps_anti a b : eps b a = (- eps a b)%Z.
Proof. unfold eps. destruct (pt_dec a u), (pt_dec b v), (pt_dec a v), (pt_dec b u); lia. Qed.
Definition net1 (t : tri) : Z := let '(a, b, c) := t in (eps a b + (eps b c + eps c a))%Z.
Definition zsum (l : list Z) : Z := fold_right Z.add 0%Z l.
Lemma zsum_app a b : zsum (a ++ b) = (zsum a + zsum b)%Z.
Proof. unfold zsum. induction a as [|x a IH]; cbn; lia. Qed.
Definition net (T : list tri) : Z := zsum (map net1 T).
Lemma net_app a b : net (a ++ b) = (net a + net b)%Z.
Proof. unfold net. rewrite map_app. apply zsum_app. Qed.
Lemma net_flat {A} (f : A -> list tri) l : net (flat_map f l) = zsum (map (fun x => net (f x)) l).
Proof. induction l as [|x l IH]; [reflexivity|]. cbn [flat_map map]. rewrite net_app, IH. reflexivity. Qed.
Lemma times_net T : Z.of_nat (times pt_dec T u v) = (Z.of_nat (times pt_dec T v u) + net T)%Z.
Proof.
  induction T as [|((a, b), c) T IH]; [reflexivity|]. unfold times, net in *. cbn [flat_map directed map]. rewrite !filter_app, !app_length, !Nat2Z.inj_add, IH. change (zsum (net1 (a, b, c) :: map net1 T)) with (net1 (a, b, c) + zsum (map net1 T))%Z. cbn [net1 filter fst snd]. unfold eps.
  destruct (pt_dec a u), (pt_dec b v), (pt_dec a v), (pt_dec b u), (pt_dec c v), (pt_dec c u); cbn [length]; lia.
Qed.

Definition quad (p : pt) (s : nat) : Z := (net1 (tri_at p (2 * s)) + net1 (tri_at p (2 * s + 1)))%Z.
Ltac shape := unfold quad, tri_at, tri0; cbn [Nat.mul Nat.add nth cube_faces cube_verts dir net1]; rewrite ?plus_assoc; cbn [plus Z.add Pos.add Z.pos_sub Pos.pred_double Pos.compare].
Ltac anti := repeat match goal with |- context [eps ?a ?b] => lazymatch goal with K : eps b a = _ |- _ => fail | _ => pose proof (eps_anti a b) end end.
Lemma quad_opposite s s' p : (s = 4 /\ s' = 0) \/ (s = 1 /\ s' = 3) \/ (s = 5 /\ s' = 2) -> (quad p s + quad (plus p (dir s)) s' = 0)%Z.
Proof. intros [(-> & ->)|[(-> & ->)|(-> & ->)]]; shape; anti; lia. Qed.
Lemma quad_cube p : (quad p 0 + quad p 1 + quad p 2 + quad p 3 + quad p 4 + quad p 5 = 0)%Z.
Proof. shape; anti; lia. Qed.
End Net.

(* ---- sums over the grid ---- *)
Lemma zsum_cons x l : zsum (x :: l) = (x + zsum l)%Z.
Proof. reflexivity. Qed.
Lemma zsum_ext {A} (f g : A -> Z) l : (forall x, In x l -> f x = g x) -> zsum (map f l) = zsum (map g l).
Proof. induction l as [|x l IH]; intros H; [reflexivity|]. cbn [map]. rewrite !zsum_cons, (H x) by (left; reflexivity). rewrite IH; [reflexivity|]. intros y Hy. apply H. right. exact Hy. Qed.
Lemma zsum_sub {A} (f g : A -> Z) l : zsum (map (fun x => f x - g x)%Z l) = (zsum (map f l) - zsum (map g l))%Z.
Proof. induction l as [|x l IH]; [reflexivity|]. cbn [map]. rewrite !zsum_cons, IH. lia. Qed.
Lemma zsum_add {A} (f g : A -> Z) l : zsum (map (fun x => f x + g x)%Z l) = (zsum (map f l) + zsum (map g l))%Z.
Proof. induction l as [|x l IH]; [reflexivity|]. cbn [map]. rewrite !zsum_cons, IH. lia. Qed.
Lemma zsum_zero {A} (f : A -> Z) l : (forall x, In x l -> f x = 0%Z) -> zsum (map f l) = 0%Z.
Proof. induction l as [|x l IH]; intros H; [reflexivity|]. cbn [map]. rewrite zsum_cons, (H x) by (left; reflexivity). rewrite IH; [reflexivity|]. intros y Hy. apply H. right. exact Hy. Qed.
Lemma zsum_flat {A B} (f : B -> Z) (g : A -> list B) l : zsum (map f (flat_map g l)) = zsum (map (fun x => zsum (map f (g x))) l).
Proof. induction l as [|x l IH]; [reflexivity|]. cbn [flat_map map]. rewrite map_app, zsum_app, zsum_cons, IH. reflexivity. Qed.
Lemma telescope (F : Z -> Z) K : zsum (map (fun i => F (Z.of_nat i) - F (Z.of_nat i - 1))%Z (seq 0 K)) = (F (Z.of_nat K - 1) - F (-1))%Z.
Proof.
  induction K as [|K IH]; [cbn; lia|]. rewrite seq_S, map_app, zsum_app, IH. cbn [map Nat.add]. rewrite zsum_cons. replace (Z.of_nat (S K) - 1)%Z with (Z.of_nat K) by lia. unfold zsum. cbn [fold_right]. lia.
Qed.
Definition sum3 (H W D : nat) (f : Z -> Z -> Z -> Z) : Z :=
  zsum (map (fun h => zsum (map (fun w => zsum (map (fun d => f (Z.of_nat w) (Z.of_nat h) (Z.of_nat d)) (seq 0 D))) (seq 0 W))) (seq 0 H)).
Lemma sum3_grid H W D (f : pt -> Z) : zsum (map (fun c => f (pt_of c)) (grid H W D)) = sum3 H W D (fun x y z => f (x, y, z)).
Proof.
  unfold grid, sum3. rewrite zsum_flat. apply zsum_ext. intros h _. rewrite zsum_flat. apply zsum_ext. intros w _. rewrite map_map. reflexivity.
Qed.
Lemma sum3_x H W D f : (forall y z, f (-1)%Z y z = 0%Z) -> (forall y z, f (Z.of_nat W - 1)%Z y z = 0%Z) -> sum3 H W D (fun x y z => f x y z - f (x - 1)%Z y z)%Z = 0%Z.
Proof.
  intros A B. unfold sum3. apply zsum_zero. intros h _. pose (F := fun x => zsum (map (fun d => f x (Z.of_nat h) (Z.of_nat d)) (seq 0 D))).
  rewrite (zsum_ext _ (fun w => F (Z.of_nat w) - F (Z.of_nat w - 1))%Z) by (intros w _; unfold F; rewrite <- zsum_sub; reflexivity).
  rewrite telescope. unfold F. rewrite !zsum_zero; [reflexivity| |]; intros; auto.
Qed.
Lemma sum3_y H W D f : (forall x z, f x (-1)%Z z = 0%Z) -> (forall x z, f x (Z.of_nat H - 1)%Z z = 0%Z) -> sum3 H W D (fun x y z => f x y z - f x (y - 1)%Z z)%Z = 0%Z.
Proof.
  intros A B. unfold sum3. pose (F := fun y => zsum (map (fun w => zsum (map (fun d => f (Z.of_nat w) y (Z.of_nat d)) (seq 0 D))) (seq 0 W))).
  rewrite (zsum_ext _ (fun h => F (Z.of_nat h) - F (Z.of_nat h - 1))%Z).
  2:{ intros h _. unfold F. rewrite <- zsum_sub. apply zsum_ext. intros w _. apply zsum_sub. }
  rewrite telescope. unfold F. rewrite !zsum_zero; [reflexivity| |]; intros; apply zsum_zero; auto.
Qed.
Lemma sum3_z H W D f : (forall x y, f x y (-1)%Z = 0%Z) -> (forall x y, f x y (Z.of_nat D - 1)%Z = 0%Z) -> sum3 H W D (fun x y z => f x y z - f x y (z - 1)%Z)%Z = 0%Z.
Proof.
  intros A B. unfold sum3. apply zsum_zero. intros h _. apply zsum_zero. intros w _. rewrite (telescope (fun z => f (Z.of_nat w) (Z.of_nat h) z)). rewrite A, B. reflexivity.
Qed.
Lemma sum3_sub H W D f g : sum3 H W D (fun x y z => f x y z - g x y z)%Z = (sum3 H W D f - sum3 H W D g)%Z.
Proof. unfold sum3. rewrite <- zsum_sub. apply zsum_ext. intros h _. rewrite <- zsum_sub. apply zsum_ext. intros w _. apply zsum_sub. Qed.
Lemma sum3_add H W D f g : sum3 H W D (fun x y z => f x y z + g x y z)%Z = (sum3 H W D f + sum3 H W D g)%Z.
Proof. unfold sum3. rewrite <- zsum_add. apply zsum_ext. intros h _. rewrite <- zsum_add. apply zsum_ext. intros w _. apply zsum_add. Qed.
Lemma sum3_ext H W D f g : (forall x y z, f x y z = g x y z) -> sum3 H W D f = sum3 H W D g.
Proof. intros E. unfold sum3. apply zsum_ext. intros h _. apply zsum_ext. intros w _. apply zsum_ext. intros d _. apply E. Qed.

Section Closed.
Variables (D H W : nat) (vox : nat -> nat -> nat -> nat -> R) (thresh : R) (n : nat).
Notation occn := (occ D H W vox thresh n).
Notation expn := (exp D H W vox thresh n).
Definition tris_at (p : pt) : list tri := map (tri_at p) (filter (fun k => expn p (side_of_face k)) (seq 0 12)).
Definition all_tris : list tri := flat_map (fun c => tris_at (pt_of c)) (grid H W D).
Definition all_sides : list (pt * pt) := flat_map (fun c => map (fun s => (pt_of c, dir s)) (filter (expn (pt_of c)) (seq 0 6))) (grid H W D).

Definition ind (p : pt) : Z := if occn p then 1 else 0.
Section Net.
Variables u v : pt.
Notation quadn := (quad u v).
Definition shared (s : nat) (p : pt) : Z := (ind p * ind (plus p (dir s)) * quadn p s)%Z.
Lemma net_cell p : net u v (tris_at p) = (- (shared 0 p + shared 1 p + shared 2 p + shared 3 p + shared 4 p + shared 5 p))%Z.
Proof.
  pose proof (quad_cube u v p) as Q. unfold shared, ind. unfold tris_at.
  assert (E : net u v (map (tri_at p) (filter (fun k => expn p (side_of_face k)) (seq 0 12))) =
    ((if expn p 0 then quadn p 0 else 0) + (if expn p 1 then quadn p 1 else 0) + (if expn p 2 then quadn p 2 else 0) + (if expn p 3 then quadn p 3 else 0) + (if expn p 4 then quadn p 4 else 0) + (if expn p 5 then quadn p 5 else 0))%Z).
  { cbn [seq filter side_of_face Nat.div2]. unfold quad. cbn [Nat.mul Nat.add].
    destruct (expn p 0), (expn p 1), (expn p 2), (expn p 3), (expn p 4), (expn p 5); cbn [map]; unfold net; cbn [map]; rewrite ?zsum_cons; unfold zsum; cbn [fold_right]; lia. }
  rewrite E. unfold exp. destruct (occn p); cbn [andb]; [|lia].
  destruct (occn (plus p (dir 0))), (occn (plus p (dir 1))), (occn (plus p (dir 2))), (occn (plus p (dir 3))), (occn (plus p (dir 4))), (occn (plus p (dir 5))); cbn [negb]; lia.
Qed.
Lemma shared_opposite s s' p : (s = 4 /\ s' = 0) \/ (s = 1 /\ s' = 3) \/ (s = 5 /\ s' = 2) -> shared s' p = (- shared s (plus p (dir s')))%Z.
Proof.
  intros Hs. pose proof (quad_opposite u v s s' (plus p (dir s')) Hs) as Q.
  assert (E : plus (plus p (dir s')) (dir s) = p).
  { rewrite plus_assoc. destruct Hs as [(-> & ->)|[(-> & ->)|(-> & ->)]]; cbn [dir]; apply plus_0. }
  unfold shared. rewrite E in *. replace (quadn (plus p (dir s')) s) with (- quadn p s')%Z by lia. ring.
Qed.
Lemma shared_zero s p : occn p = false \/ occn (plus p (dir s)) = false -> shared s p = 0%Z.
Proof. unfold shared, ind. intros [-> | ->]; ring. Qed.
Lemma net_all : net u v all_tris = 0%Z.
Proof.
  unfold all_tris. rewrite net_flat. rewrite (sum3_grid H W D (fun p => net u v (tris_at p))).
  rewrite (sum3_ext H W D _ (fun x y z => (0 - ((shared 4 (x, y, z) - shared 4 (x - 1, y, z)) + (shared 1 (x, y, z) - shared 1 (x, y - 1, z)) + (shared 5 (x, y, z) - shared 5 (x, y, z - 1))))%Z)).
  2:{ intros x y z. rewrite net_cell. rewrite (shared_opposite 4 0), (shared_opposite 1 3), (shared_opposite 5 2) by tauto. cbn [dir plus]. rewrite !Z.add_0_r. change (x + -1)%Z with (x - 1)%Z. change (y + -1)%Z with (y - 1)%Z. change (z + -1)%Z with (z - 1)%Z. ring. }
  rewrite sum3_sub, !sum3_add.
  rewrite (sum3_x H W D (fun x y z => shared 4 (x, y, z))), (sum3_y H W D (fun x y z => shared 1 (x, y, z))), (sum3_z H W D (fun x y z => shared 5 (x, y, z)));
    try (intros; apply shared_zero; first [left; apply occ_out; lia | right; cbn [dir plus]; apply occ_out; lia]).
  unfold sum3. rewrite zsum_zero; [reflexivity|]. intros h _. apply zsum_zero. intros w _. apply zsum_zero. reflexivity.
Qed.
End Net.
Lemma tris_closed u v : times pt_dec all_tris u v = times pt_dec all_tris v u.
Proof. apply Nat2Z.inj. rewrite (times_net u v), net_all. lia. Qed.
End Closed.
