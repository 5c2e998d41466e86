From Coq Require Import Reals Bool Lia Lra Permutation.
From Verif Require Import Base RBase Knn KnnSpec KnnProofs Chamfer ChamferSpec ChamferProofs.
Local Open Scope R_scope.

Lemma combine_map2 {A B C} (f : A -> B) (g : A -> C) l : combine (map f l) (map g l) = map (fun a => (f a, g a)) l.
Proof. induction l; cbn; congruence. Qed.
Lemma combine_map_r {A B C} (g : B -> C) (w : list A) l : combine w (map g l) = map (fun p => (fst p, g (snd p))) (combine w l).
Proof. revert l. induction w as [|a w IH]; intros [|b l]; cbn; try reflexivity. f_equal. apply IH. Qed.
Lemma map_fst_combine {A B} (a : list A) (b : list B) : length a = length b -> map fst (combine a b) = a.
Proof. revert b. induction a as [|x a IH]; intros [|y b] H; cbn in *; try discriminate; [reflexivity|]. f_equal. apply IH. lia. Qed.
Lemma map_snd_combine {A B} (a : list A) (b : list B) : length a = length b -> map snd (combine a b) = b.
Proof. revert b. induction a as [|x a IH]; intros [|y b] H; cbn in *; try discriminate; [reflexivity|]. f_equal. apply IH. lia. Qed.

(* a pair of clouds with their sizes *)
Notation quad := (((list (list R) * list (list R)) * (nat * nat))%type).
Definition qx (q : quad) := fst (fst q). Definition qy (q : quad) := snd (fst q).
Definition ql (q : quad) := fst (snd q). Definition qm (q : quad) := snd (snd q).
Definition quads (x y : tensor3) (xl yl : list nat) : list quad := combine (combine (t_data x) (t_data y)) (combine xl yl).
Definition flip (q : quad) : quad := ((qy q, qx q), (qm q, ql q)).
Definition fitting (q : quad) : Prop := (ql q <= length (qx q))%nat /\ (qm q <= length (qy q))%nat.
Section Q.
Variables (x y : tensor3) (xl yl : list nat).
Hypotheses (WX : well_shaped x xl) (WY : well_shaped y yl) (MA : matching x y).
Let Q := quads x y xl yl.
Lemma lens : length (t_data x) = length (t_data y) /\ length xl = length (t_data x) /\ length yl = length (t_data x).
Proof. destruct WX as (A & _), WY as (B & _), MA as (C & _). lia. Qed.
Lemma q_x : map qx Q = t_data x.
Proof. destruct lens as (A & B & C). transitivity (map fst (map fst Q)); [symmetry; apply map_map|]. unfold Q, quads. rewrite map_fst_combine, map_fst_combine; rewrite ?combine_length; lia || reflexivity. Qed.
Lemma q_y : map qy Q = t_data y.
Proof. destruct lens as (A & B & C). transitivity (map snd (map fst Q)); [symmetry; apply map_map|]. unfold Q, quads. rewrite map_fst_combine, map_snd_combine; rewrite ?combine_length; lia || reflexivity. Qed.
Lemma q_l : map ql Q = xl.
Proof. destruct lens as (A & B & C). transitivity (map fst (map snd Q)); [symmetry; apply map_map|]. unfold Q, quads. rewrite map_snd_combine, map_fst_combine; rewrite ?combine_length; lia || reflexivity. Qed.
Lemma q_m : map qm Q = yl.
Proof. destruct lens as (A & B & C). transitivity (map snd (map snd Q)); [symmetry; apply map_map|]. unfold Q, quads. rewrite map_snd_combine, map_snd_combine; rewrite ?combine_length; lia || reflexivity. Qed.
Lemma q_len : length Q = length (t_data x).
Proof. rewrite <- q_x. rewrite map_length. reflexivity. Qed.
Lemma q_clouds_x : clouds x xl = map (fun q => firstn (ql q) (qx q)) Q.
Proof. unfold clouds. rewrite <- q_l at 1. rewrite <- q_x at 1. rewrite combine_map2, map_map. reflexivity. Qed.
Lemma q_clouds_y : clouds y yl = map (fun q => firstn (qm q) (qy q)) Q.
Proof. unfold clouds. rewrite <- q_m at 1. rewrite <- q_y at 1. rewrite combine_map2, map_map. reflexivity. Qed.
Lemma q_points_x : List.Forall (fun q => length (qx q) = t_points x) Q.
Proof. destruct WX as (_ & _ & W). rewrite <- q_x, Forall_map in W. eapply Forall_impl; [|exact W]. cbv beta. tauto. Qed.
Lemma q_points_y : List.Forall (fun q => length (qy q) = t_points y) Q.
Proof. destruct WY as (_ & _ & W). rewrite <- q_y, Forall_map in W. eapply Forall_impl; [|exact W]. cbv beta. tauto. Qed.
Lemma q_fit : List.Forall fitting Q.
Proof.
  pose proof q_points_x as A. pose proof q_points_y as B. destruct WX as (_ & C & _), WY as (_ & D & _). rewrite <- q_l, Forall_map in C. rewrite <- q_m, Forall_map in D. rewrite Forall_forall in *. intros q Hq. specialize (A q Hq). specialize (B q Hq). specialize (C q Hq). specialize (D q Hq). cbv beta in *. split; lia.
Qed.
Lemma q_flip : quads y x yl xl = map flip Q.
Proof. unfold quads. rewrite <- q_x, <- q_y. rewrite <- q_l at 1. rewrite <- q_m at 1. rewrite !combine_map2. reflexivity. Qed.
End Q.

(* the rows of all clouds *)
Definition near_rows (norm : nat) (q : quad) (rows : list (R * nat)) : Prop :=
  length rows = length (qx q) /\ forall i r, nth_error rows i = Some r -> near_row norm (qx q) (qy q) (ql q) (qm q) i r.
Lemma all_rows sort norm Q m : norm = 1%nat \/ norm = 2%nat -> List.Forall fitting Q -> List.Forall (fun q => (m <= qm q)%nat) Q ->
  exists rows, rmap (fun q : quad => nearest_rows sort norm (fst (fst q)) (snd (fst q)) (fst (snd q)) (snd (snd q)) m) Q = Ok rows /\ Forall2 (near_rows norm) Q rows.
Proof.
  intros Hn. induction Q as [|q Q IH]; intros HF HM; [exists []; split; [reflexivity|constructor]|]. inversion HF as [|? ? (F1 & F2) F']; inversion HM; subst. destruct IH as (rows & E & H); [assumption|assumption|].
  destruct (nearest_rows_ok sort norm (qx q) (qy q) (ql q) (qm q) m Hn F1 F2 ltac:(assumption)) as (r & Er & L & Hr). exists (r :: rows). split; [|constructor; [split; assumption|exact H]]. cbn [rmap]. unfold qx, qy, ql, qm in Er. rewrite Er. cbn [rbind]. rewrite E. reflexivity.
Qed.
Definition q_dists (norm : nat) (q : quad) : list R := dist_row norm (qx q) (qy q) (ql q) (qm q).
Lemma all_dists norm Q rows : List.Forall fitting Q -> Forall2 (near_rows norm) Q rows -> map (map fst) rows = map (q_dists norm) Q.
Proof.
  intros HF H. induction H as [|q r Q rows (L & Hr) H IH]; [reflexivity|]. inversion HF as [|? ? (F1 & F2) F']; subst. cbn [map]. f_equal; [|apply IH; exact F']. apply rows_dists; assumption.
Qed.
Lemma all_masked norm Q : List.Forall fitting Q -> map (fun q => mask_row (fst q) (snd q)) (combine (map ql Q) (map (q_dists norm) Q)) = map (q_dists norm) Q.
Proof.
  intros HF. rewrite combine_map2, map_map. apply map_ext_in. intros q Hq. rewrite Forall_forall in HF. destruct (HF q Hq) as (F1 & _). apply mask_dists. exact F1.
Qed.
Definition q_one (r : point_red) (norm : nat) (q : quad) : R := one_way r norm (firstn (ql q) (qx q)) (firstn (qm q) (qy q)).
Definition weighted (w : option (list R)) {A} (f : A -> R) (l : list A) : list R :=
  match w with None => map f l | Some w => map (fun p => fst p * f (snd p)) (combine w l) end.
Lemma scale_one l : map (fun d => d * 1) l = l.
Proof. induction l; cbn; [reflexivity|]. f_equal; [lra|assumption]. Qed.
Lemma rsum_scale l w : rsum (map (fun d => d * w) l) = w * rsum l.
Proof. induction l as [|a l IH]; cbn [map]; [rewrite !rsum_nil; lra|]. rewrite !rsum_cons, IH. lra. Qed.
Lemma row_value r norm q w : fitting q -> 0 <= w -> (r = PMax -> (0 < length (qx q))%nat) ->
  match r with
  | PMax => row_max (map (fun d => d * w) (q_dists norm q)) = Ok (w * q_one r norm q)
  | PSum => rsum (map (fun d => d * w) (q_dists norm q)) = w * q_one r norm q
  | PMean => rsum (map (fun d => d * w) (q_dists norm q)) / INR (Nat.max (ql q) 1) = w * q_one r norm q
  end.
Proof.
  intros (F1 & F2) Hw Hm. unfold q_dists, q_one. destruct r.
  - rewrite rsum_scale, dists_sum. reflexivity.
  - rewrite rsum_scale, dists_sum. unfold one_way. rewrite firstn_length, Nat.min_l by exact F1. unfold Rdiv. ring.
  - specialize (Hm eq_refl). destruct (row_max (map (fun d => d * w) (dist_row norm (qx q) (qy q) (ql q) (qm q)))) as [a|e] eqn:E.
    + f_equal. apply dists_max with (x := qx q) in E; auto.
    + exfalso. assert (LD : length (map (fun d => d * w) (dist_row norm (qx q) (qy q) (ql q) (qm q))) = length (qx q)) by (unfold dist_row; rewrite map_length, app_length, map_length, firstn_length, repeat_length; lia). destruct (map _ _); [cbn in LD; lia|discriminate].
Qed.
Lemma rmap_total {A B} (f : A -> result B) (g : A -> B) l : (forall a, In a l -> f a = Ok (g a)) -> rmap f l = Ok (map g l).
Proof. induction l as [|a l IH]; intros H; [reflexivity|]. cbn [rmap map]. rewrite (H a (or_introl eq_refl)). cbn [rbind]. rewrite IH by (intros; apply H; right; assumption). reflexivity. Qed.
Lemma rmap_map' {A B C} (f : B -> result C) (g : A -> B) l : rmap f (map g l) = rmap (fun a => f (g a)) l.
Proof. induction l as [|a l IH]; [reflexivity|]. cbn [map rmap]. destruct (f (g a)); [|reflexivity]. cbn [rbind]. rewrite IH. reflexivity. Qed.
Lemma dists_reduced r norm w Q : List.Forall fitting Q -> (r = PMax -> List.Forall (fun q => (0 < length (qx q))%nat) Q) ->
  match w with None => True | Some w => length w = length Q /\ List.Forall (fun a => 0 <= a) w end ->
  reduce_points (Some r) (map ql Q) (scale_rows w (map (q_dists norm) Q)) = Ok (V (weighted w (q_one r norm) Q)).
Proof.
  intros HF HM HW. destruct w as [w|]; cbn [scale_rows weighted].
  - destruct HW as (LW & PW). rewrite combine_map_r, map_map. cbn [fst snd].
    assert (IN : forall p, In p (combine w Q) -> fitting (snd p) /\ 0 <= fst p /\ (r = PMax -> (0 < length (qx (snd p)))%nat)).
    { intros (a, q) Hp. rewrite Forall_forall in HF, PW. split; [apply HF; eapply in_combine_r; exact Hp|]. split; [apply PW; eapply in_combine_l; exact Hp|]. intros E. specialize (HM E). rewrite Forall_forall in HM. apply HM. eapply in_combine_r; exact Hp. }
    destruct r; cbn [reduce_points].
    + f_equal. f_equal. rewrite map_map. apply map_ext_in. intros p Hp. destruct (IN p Hp) as (A & B & C). exact (row_value PSum norm (snd p) (fst p) A B C).
    + f_equal. f_equal. assert (EL : map ql Q = map (fun p => ql (snd p)) (combine w Q)) by (rewrite <- (map_map snd ql), map_snd_combine by exact LW; reflexivity). rewrite EL, combine_map2, map_map. apply map_ext_in. intros p Hp. destruct (IN p Hp) as (A & B & C). exact (row_value PMean norm (snd p) (fst p) A B C).
    + rewrite rmap_map'. rewrite (rmap_total _ (fun p => fst p * q_one PMax norm (snd p))); [reflexivity|]. intros p Hp. destruct (IN p Hp) as (A & B & C). exact (row_value PMax norm (snd p) (fst p) A B C).
  - assert (IN : forall q, In q Q -> fitting q /\ (r = PMax -> (0 < length (qx q))%nat)).
    { intros q Hq. rewrite Forall_forall in HF. split; [apply HF; exact Hq|]. intros E. specialize (HM E). rewrite Forall_forall in HM. apply HM. exact Hq. }
    destruct r; cbn [reduce_points].
    + f_equal. f_equal. rewrite map_map. apply map_ext_in. intros q Hq. destruct (IN q Hq) as (A & C). pose proof (row_value PSum norm q 1 A ltac:(lra) C) as H. cbv beta iota in H. rewrite scale_one in H. lra.
    + f_equal. f_equal. rewrite combine_map2, map_map. apply map_ext_in. intros q Hq. destruct (IN q Hq) as (A & C). pose proof (row_value PMean norm q 1 A ltac:(lra) C) as H. cbv beta iota in H. rewrite scale_one in H. cbn [fst snd]. lra.
    + rewrite rmap_map'. rewrite (rmap_total _ (q_one PMax norm)); [reflexivity|]. intros q Hq. destruct (IN q Hq) as (A & C). pose proof (row_value PMax norm q 1 A ltac:(lra) C) as H. cbv beta iota in H. rewrite scale_one in H. rewrite H. f_equal. lra.
Qed.
Lemma weights_ok w N : fine_weights w N -> (match w with None => Ok false | Some w => if negb (length w =? N)%nat then Fail EValue else if negb (forallb (fun a => Rleb 0 a) w) then Fail EValue else Ok (Reqb (rsum w) 0) end) = Ok false
  /\ match w with None => True | Some w => length w = N /\ List.Forall (fun a => 0 <= a) w end.
Proof.
  destruct w as [w|]; cbn [fine_weights]; [|auto]. intros (L & P & S). split; [|auto]. rewrite L, Nat.eqb_refl. cbn [negb]. assert (EF : forallb (fun a => Rleb 0 a) w = true). { apply forallb_forall. rewrite Forall_forall in P. intros a Ha. specialize (P a Ha). destruct (Rleb_spec 0 a); [reflexivity|lra]. } rewrite EF. cbn [negb]. destruct (Reqb_spec (rsum w) 0); [contradiction|reflexivity].
Qed.
Lemma single_ok sort x y xl yl w r norm ab : norm = 1%nat \/ norm = 2%nat -> well_shaped x xl -> well_shaped y yl -> matching x y -> fine_weights w (length (t_data x)) ->
  (r = PMax -> (0 < t_points x)%nat) ->
  single_direction sort x y xl yl None None w (Some r) norm ab = Ok (V (weighted w (q_one r norm) (quads x y xl yl)), None).
Proof.
  intros Hn WX WY MA HW HM. unfold single_direction. destruct MA as (M1 & M2). rewrite <- M1, M2, !Nat.eqb_refl. cbn [negb orb]. destruct (weights_ok w _ HW) as (EW & PW). rewrite EW.
  set (Q := quads x y xl yl). change (combine (combine (t_data x) (t_data y)) (combine xl yl)) with Q. pose proof (q_fit x y xl yl WX WY (conj M1 M2)) as HF. fold Q in HF. pose proof (q_m x y xl yl WX WY (conj M1 M2)) as QM. fold Q in QM. pose proof (q_l x y xl yl WX WY (conj M1 M2)) as QL. fold Q in QL.
  destruct (all_rows sort norm Q (min_of yl) Hn HF) as (rows & E & HR). { apply Forall_forall. intros q Hq. apply min_le. rewrite <- QM. apply in_map. exact Hq. }
  rewrite E. cbn [rbind]. rewrite (all_dists norm Q rows HF HR). rewrite <- QL. rewrite (all_masked norm Q HF).
  assert (EI : forall b : bool, (if b then map (q_dists norm) Q else map (q_dists norm) Q) = map (q_dists norm) Q) by (intros []; reflexivity). rewrite EI. rewrite dists_reduced; [reflexivity|exact HF| |].
  - intros Er. specialize (HM Er). pose proof (q_points_x x y xl yl WX WY (conj M1 M2)) as HP. fold Q in HP. eapply Forall_impl; [|exact HP]. intros q Hq. cbv beta in Hq. lia.
  - destruct w as [w|]; [|exact I]. destruct PW as (P1 & P2). split; [|exact P2]. rewrite P1. symmetry. apply (q_len x y xl yl WX WY (conj M1 M2)).
Qed.
Lemma weighted_ext w {A} (f g : A -> R) l : (forall a, In a l -> f a = g a) -> weighted w f l = weighted w g l.
Proof. intros H. destruct w as [w|]; cbn [weighted]; apply map_ext_in; [|exact H]. intros (a, b) Hp. cbn. rewrite (H b); [reflexivity|]. eapply in_combine_r. exact Hp. Qed.
Lemma weighted_map w {A B} (f : B -> R) (g : A -> B) l : weighted w f (map g l) = weighted w (fun a => f (g a)) l.
Proof. destruct w as [w|]; cbn [weighted]; [|apply map_map]. rewrite combine_map_r, map_map. reflexivity. Qed.
Lemma weighted_length w {A} (f : A -> R) l : (match w with None => True | Some w => length w = length l end) -> length (weighted w f l) = length l.
Proof. destruct w as [w|]; cbn [weighted]; [|intros _; apply map_length]. intros H. rewrite map_length, combine_length. lia. Qed.
Lemma weighted_zip w {A} (op : R -> R -> R) (f g : A -> R) l : match w with None => True | Some w => List.Forall (fun a => 0 <= a) w end -> (forall c a b, 0 <= c -> op (c * a) (c * b) = c * op a b) ->
  map (fun p => op (fst p) (snd p)) (combine (weighted w f l) (weighted w g l)) = weighted w (fun a => op (f a) (g a)) l.
Proof.
  intros HW HO. destruct w as [w|]; cbn [weighted].
  - rewrite combine_map2, map_map. apply map_ext_in. intros (a, b) Hp. cbn. apply HO. rewrite Forall_forall in HW. apply HW. eapply in_combine_l. exact Hp.
  - rewrite combine_map2, map_map. reflexivity.
Qed.
Lemma handle_ok x xl : well_shaped x xl -> t_data x <> [] -> handle_input (FromTensor x) (Some xl) None = Ok (x, xl, None).
Proof.
  intros (L & F & _) N. unfold handle_input. rewrite L, Nat.eqb_refl. cbn [negb]. destruct xl as [|a xl]; [destruct (t_data x); [congruence|discriminate]|]. assert (M : In (max_nat (a :: xl)) (a :: xl)) by (apply max_nat_in; discriminate). rewrite Forall_forall in F. specialize (F _ M). destruct (Nat.ltb_spec (t_points x) (max_nat (a :: xl))); [lia|reflexivity].
Qed.
Lemma pair_losses_eq r norm single w x y xl yl : well_shaped x xl -> well_shaped y yl -> matching x y ->
  pair_losses r norm single w (combine (clouds x xl) (clouds y yl)) = weighted w (fun q => both_ways r norm single (firstn (ql q) (qx q)) (firstn (qm q) (qy q))) (quads x y xl yl).
Proof.
  intros WX WY MA. rewrite (q_clouds_x x y xl yl WX WY MA), (q_clouds_y x y xl yl WX WY MA), combine_map2. unfold pair_losses, weighted. destruct w as [w|]; [rewrite combine_map_r, map_map; reflexivity|rewrite map_map; reflexivity].
Qed.
Lemma rmax_scale c a b : 0 <= c -> Rmax (c * a) (c * b) = c * Rmax a b.
Proof. intros H. rewrite RmaxRmult by exact H. reflexivity. Qed.
Lemma reduce_ok w b l : (match w with None => True | Some w => rsum w <> 0 end) -> batch_reduce (One (V l)) None w b = Ok (reduced b w l, None).
Proof.
  intros HW. unfold batch_reduce, reduced. destruct b as [[|]|]; cbn [tens_sum tens_len]; [| |reflexivity].
  - f_equal. f_equal. f_equal. field.
  - destruct w as [w|]; [|reflexivity]. destruct (Reqb_spec (rsum w) 0); [contradiction|reflexivity].
Qed.
Theorem chamfer_value sort x y xl yl w b r norm single ab : norm = 1%nat \/ norm = 2%nat -> well_shaped x xl -> well_shaped y yl -> matching x y -> t_data x <> [] ->
  fine_weights w (length (t_data x)) -> max_defined r single x y ->
  chamfer_distance sort (FromTensor x) (FromTensor y) (Some xl) (Some yl) None None w b (Some r) norm single ab =
  Ok (reduced b w (pair_losses r norm single w (combine (clouds x xl) (clouds y yl))), None).
Proof.
  intros Hn WX WY MA NE HW HM. unfold chamfer_distance. assert (E1 : negb (valid_reductions b (Some r)) = false) by reflexivity. rewrite E1.
  assert (E2 : negb ((norm =? 1)%nat || (norm =? 2)%nat) = false) by (destruct Hn as [-> | ->]; reflexivity). rewrite E2. assert (E3 : match Some r with Some PMax => false | _ => false end = false) by (destruct r; reflexivity).
  replace (match r with PMax => false | _ => false end) with false by (destruct r; reflexivity). cbv iota.
  rewrite (handle_ok x xl WX NE). cbn [rbind]. assert (NE' : t_data y <> []) by (destruct MA as (M & _); destruct (t_data x), (t_data y); cbn in *; congruence). rewrite (handle_ok y yl WY NE'). cbn [rbind].
  assert (HWS : match w with None => True | Some w => rsum w <> 0 end) by (destruct w; [apply HW|exact I]). assert (HWP : match w with None => True | Some w => List.Forall (fun a => 0 <= a) w end) by (destruct w; [apply HW|exact I]).
  rewrite (single_ok sort x y xl yl w r norm ab Hn WX WY MA HW) by (intros E; apply (HM E)). cbn [rbind]. rewrite (pair_losses_eq r norm single w x y xl yl WX WY MA).
  set (Q := quads x y xl yl). unfold both_ways. destruct single.
  - cbn [rbind option_map fst snd]. apply reduce_ok. exact HWS.
  - assert (MA' : matching y x) by (destruct MA; split; symmetry; assumption).
    rewrite (single_ok sort y x yl xl w r norm ab Hn WY WX MA'); [|destruct MA as (M & _); rewrite <- M; exact HW|intros E; apply (HM E); reflexivity]. cbn [rbind]. rewrite (q_flip x y xl yl WX WY MA). fold Q. rewrite weighted_map.
    assert (HWL : match w with None => True | Some w => length w = length Q end). { destruct w as [w|]; [|exact I]. unfold Q. rewrite (q_len x y xl yl WX WY MA). apply HW. }
    assert (EF : forall q, q_one r norm (flip q) = one_way r norm (firstn (qm q) (qy q)) (firstn (ql q) (qx q))) by reflexivity.
    destruct r; cbn [zip_tens]; rewrite !weighted_length, Nat.eqb_refl by exact HWL; cbn [rbind fst snd].
    + rewrite (weighted_zip w Rplus _ _ Q HWP) by (intros; ring). apply reduce_ok. exact HWS.
    + rewrite (weighted_zip w Rplus _ _ Q HWP) by (intros; ring). apply reduce_ok. exact HWS.
    + rewrite (weighted_zip w Rmax _ _ Q HWP) by (intros; apply rmax_scale; assumption). apply reduce_ok. exact HWS.
Qed.
