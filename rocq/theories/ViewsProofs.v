From Coq Require Import Reals List Bool Arith Lra Lia.
From Verif Require Import Base RBase Views ViewsSpec.
Import ListNotations.
Local Open Scope R_scope.

Lemma maximum_greatest l : l <> [] -> greatest (maximum l) l.
Proof.
  destruct l as [|a l]; [contradiction|]. intros _. cbn [maximum]. induction l as [|c l IH].
  - split; [left; reflexivity|]. intros x [<-|[]]. cbn. lra.
  - cbn [fold_right]. destruct IH as [I G]. destruct (Rle_dec c (fold_right Rmax a l)) as [L|L]; [rewrite Rmax_right by exact L|rewrite Rmax_left by lra].
    + split; [destruct I as [I|I]; [left; exact I|right; right; exact I]|]. intros x [<-|[<-|X]].
      * apply G. left. reflexivity.
      * exact L.
      * apply G. right. exact X.
    + split; [right; left; reflexivity|]. intros x [<-|[<-|X]].
      * pose proof (G a (or_introl eq_refl)). lra.
      * lra.
      * pose proof (G x (or_intror X)). lra.
Qed.
Lemma weight_visible (b : nat) (ex : bool) (masks : nat -> bool) (v : nat) : (if masks v then 1 else 0) * view_mask b ex v = if visible ex b masks v then 1 else 0.
Proof. unfold view_mask, visible. destruct (masks v), ex, (v =? b)%nat; cbn; ring. Qed.
Lemma sum_filter (p : nat -> bool) (w g : channel) l : (forall v, w v = if p v then 1 else 0) ->
  rsum (map (fun v => g v * w v) l) = rsum (map g (filter p l)) /\ rsum (map w l) = INR (length (filter p l)).
Proof.
  intros H. induction l as [|v l [A B]]; [split; reflexivity|]. cbn [map filter]. rewrite !rsum_cons, A, B, H. destruct (p v).
  - cbn [map length]. rewrite rsum_cons, S_INR. split; ring.
  - split; ring.
Qed.

Section reduce.
Variables (n : nat) (p : nat -> bool) (w : channel).
Hypothesis Hw : forall v, w v = if p v then 1 else 0.
Notation seen := (filter p (seq 0 n)).
Hypothesis Hs : seen <> [].
Lemma count_pos : 1 <= INR (length seen).
Proof. destruct seen; [contradiction|]. cbn [length]. rewrite S_INR. pose proof (pos_INR (length l)). lra. Qed.
Lemma wmean_seen x : wmean n x w = mean (map x seen).
Proof.
  unfold wmean, over, mean. destruct (sum_filter p w x (seq 0 n) Hw) as [-> ->]. rewrite map_length. pose proof count_pos.
  rewrite Rmax_left by lra. reflexivity.
Qed.
Lemma std_seen x : std_reduction n w x = deviation (map x seen).
Proof. unfold std_reduction, deviation, avg_reduction. rewrite !wmean_seen, map_map. reflexivity. Qed.
Lemma std_avg_seen xs : std_avg_reduction n w xs = mean (map deviation (map (fun x => map x seen) xs)).
Proof. unfold std_avg_reduction, mean at 1. rewrite map_map, map_length. f_equal. f_equal. apply map_ext. intros x. apply std_seen. Qed.
Lemma active : Rltb (1 / 10000) (maximum (over n w)) = true.
Proof.
  apply Rltb_true. destruct seen as [|v l] eqn:E; [contradiction|].
  assert (V : In v (filter p (seq 0 n))) by (rewrite E; left; reflexivity). apply filter_In in V. destruct V as [V P].
  assert (I : In (w v) (over n w)) by (apply in_map, V). rewrite Hw, P in I.
  assert (N : over n w <> []) by (intros Z; rewrite Z in I; destruct I).
  pose proof (proj2 (maximum_greatest _ N) 1 I). lra.
Qed.
(* a visible value that is not negative, or no hidden views *)
Lemma max_seen x : (exists v, In v seen /\ 0 <= x v) \/ seen = seq 0 n -> greatest (max_reduction n w x) (map x seen).
Proof.
  intros H. unfold max_reduction. set (big := Rabs (maximum (over n x)) * 10). assert (B : 0 <= big) by (unfold big; pose proof (Rabs_pos (maximum (over n x))); lra).
  destruct seen as [|v0 l0] eqn:E; [contradiction|]. assert (V0 : In v0 (filter p (seq 0 n))) by (rewrite E; left; reflexivity). rewrite <- E in *.
  set (g := fun v => x v * w v - (1 - w v) * big).
  assert (N : over n g <> []) by (apply filter_In in V0; destruct V0 as [V0 _]; intros Z; apply (in_map g) in V0; unfold over in Z; rewrite Z in V0; destruct V0).
  destruct (maximum_greatest _ N) as [I G]. set (m := maximum (over n g)) in *.
  assert (Gs : forall v, In v (filter p (seq 0 n)) -> x v <= m).
  { intros v V. apply filter_In in V. destruct V as [V P]. assert (Q : g v = x v) by (unfold g; rewrite Hw, P; ring). rewrite <- Q. apply G. unfold over. apply in_map, V. }
  split; [|intros y Y; apply in_map_iff in Y; destruct Y as (v & <- & V); apply Gs, V].
  unfold over in I. apply in_map_iff in I. destruct I as (v & Gv & V). destruct (p v) eqn:P.
  - assert (Q : g v = x v) by (unfold g; rewrite Hw, P; ring). rewrite <- Gv, Q. apply in_map, filter_In. split; assumption.
  - destruct H as [(u & U & X)|Z].
    + assert (Q : g v = - big) by (unfold g; rewrite Hw, P; ring). rewrite Q in Gv. pose proof (Gs u U) as L.
      assert (m = x u) as -> by lra. apply in_map, U.
    + exfalso. rewrite <- Z in V. apply filter_In in V. destruct V. congruence.
Qed.
Lemma reduction_seen fns xs : fns <> [] ->
  (has MAX fns = true -> forall x, In x xs -> (exists v, In v seen /\ 0 <= x v) \/ seen = seq 0 n) ->
  exists y, reduction n fns w xs = Ok y /\ pooled fns (map (fun x => map x seen) xs) y.
Proof.
  intros F H. unfold reduction. destruct fns as [|f0 fns0] eqn:EF; [contradiction|]. rewrite <- EF in *. eexists. split; [reflexivity|].
  rewrite active. exists (if has MAX fns then map (max_reduction n w) xs else []). split.
  - rewrite (map_ext (fun y : R => y * 1) (fun y => y)) by (intros; ring). rewrite map_id.
    f_equal; [|f_equal; [|f_equal]].
    + destruct (has AVG fns); [|reflexivity]. rewrite map_map. apply map_ext. intros x. apply wmean_seen.
    + destruct (has STD fns); [|reflexivity]. rewrite map_map. apply map_ext. intros x. apply std_seen.
    + destruct (has STD_AVG fns); [|reflexivity]. rewrite std_avg_seen. reflexivity.
  - destruct (has MAX fns); [|reflexivity]. specialize (H eq_refl). clear F EF. induction xs as [|x xs IH]; cbn [map]; constructor.
    + apply max_seen, H. left. reflexivity.
    + apply IH. intros y Y. apply H. right. exact Y.
Qed.
End reduce.

Lemma inactive n (p : nat -> bool) (w : channel) : (forall v, w v = if p v then 1 else 0) -> filter p (seq 0 n) = [] -> (0 < n)%nat -> Rltb (1 / 10000) (maximum (over n w)) = false.
Proof.
  intros Hw E N. destruct (Rltb_spec (1 / 10000) (maximum (over n w))) as [L|_]; [|reflexivity]. exfalso.
  assert (Z : over n w <> []) by (unfold over; destruct n; [lia|discriminate]). destruct (maximum_greatest _ Z) as [I _].
  unfold over in I at 2. apply in_map_iff in I. destruct I as (v & Q & V). rewrite Hw in Q. destruct (p v) eqn:P; [|lra].
  assert (In v (filter p (seq 0 n))) by (apply filter_In; split; assumption). rewrite E in H. destruct H.
Qed.
Lemma reduction_width n fns w xs y : reduction n fns w xs = Ok y -> length y = width fns (length xs).
Proof.
  unfold reduction. destruct fns as [|f fns0] eqn:E; [discriminate|]. rewrite <- E. clear E. intros Q. injection Q as <-. rewrite map_length, !app_length. unfold width.
  destruct (has AVG fns), (has STD fns), (has STD_AVG fns), (has MAX fns); rewrite ?map_length; cbn [length]; lia.
Qed.
Lemma reduction_hidden n (p : nat -> bool) fns (w : channel) xs : (forall v, w v = if p v then 1 else 0) -> filter p (seq 0 n) = [] -> (0 < n)%nat -> fns <> [] ->
  reduction n fns w xs = Ok (repeat 0 (width fns (length xs))).
Proof.
  intros Hw E N F. destruct (reduction n fns w xs) as [y|] eqn:R0; [|unfold reduction in R0; destruct fns; [contradiction|discriminate]].
  f_equal. rewrite <- (reduction_width n fns w xs y R0). unfold reduction in R0. rewrite (inactive n p w Hw E N) in R0. destruct fns; [contradiction|].
  injection R0 as <-. clear. match goal with |- map _ ?l = _ => generalize l end. intros zs. rewrite map_length. induction zs as [|a zs IH]; [reflexivity|]. cbn [map length repeat]. rewrite IH. f_equal. ring.
Qed.

(* ---- all features ---- *)
Section aggregate.
Variables (n b : nat) (ex mf : bool) (fns : list fn) (masks : nat -> bool).
Hypotheses (Hn : (0 < n)%nat) (Hf : fns <> []).
Notation vs := (visible_views n ex b masks).
Definition w0 : channel := fun v => (if masks v then 1 else 0) * view_mask b ex v.
Definition prepared (feats : list (list channel)) : list (list channel) := if mf then map (map (mask_target b)) feats else feats.
Lemma aggregate_is feats : feats <> [] -> aggregate n ex mf fns b feats masks = (rs <- rmap (reduction n fns w0) (prepared feats) ;; Ok (concat rs)).
Proof. intros F. unfold aggregate. destruct (Nat.eqb_spec n 0); [lia|]. destruct feats; [contradiction|]. reflexivity. Qed.
Lemma w0_visible v : w0 v = if visible ex b masks v then 1 else 0.
Proof. apply weight_visible. Qed.
Lemma masked_shown (c : channel) v : (if mf then mask_target b c else c) v = shown mf b c v.
Proof. unfold shown, mask_target, view_mask. destruct mf, (v =? b)%nat; cbn; ring. Qed.
Lemma prepared_map feats : prepared feats = map (map (fun c => if mf then mask_target b c else c)) feats.
Proof. unfold prepared. destruct mf; [reflexivity|]. rewrite (map_ext _ (fun f => f)) by (intros; apply map_id). symmetry. apply map_id. Qed.
Lemma aggregate_pooled feats : feats <> [] -> vs <> [] ->
  (has MAX fns = true -> forall f c, In f feats -> In c f -> (exists v, In v vs /\ 0 <= shown mf b c v) \/ vs = seq 0 n) ->
  exists ys, aggregate n ex mf fns b feats masks = Ok (concat ys) /\
    Forall2 (fun f y => pooled fns (map (fun c => map (shown mf b c) vs) f) y) feats ys.
Proof.
  intros F V H. rewrite aggregate_is by exact F.
  assert (G : exists ys, rmap (reduction n fns w0) (prepared feats) = Ok ys /\ Forall2 (fun f y => pooled fns (map (fun c => map (shown mf b c) vs) f) y) feats ys).
  { clear F. rewrite prepared_map. induction feats as [|f feats IH]; [exists []; split; [reflexivity|constructor]|].
    destruct IH as (ys & R0 & F2); [intros M g c G C; apply (H M g c); [right; exact G|exact C]|].
    destruct (reduction_seen n (visible ex b masks) w0 w0_visible V fns (map (fun c => if mf then mask_target b c else c) f) Hf) as (y & R1 & P).
    - intros M x X. apply in_map_iff in X. destruct X as (c & <- & C). destruct (H M f c (or_introl eq_refl) C) as [(v & I & L)|Q]; [|right; exact Q].
      left. exists v. split; [exact I|]. rewrite masked_shown. exact L.
    - exists (y :: ys). cbn [map rmap]. rewrite R1. cbn [rbind]. rewrite R0. split; [reflexivity|]. constructor; [|exact F2].
      rewrite map_map in P. erewrite map_ext; [exact P|]. intros c. apply map_ext. intros v. symmetry. apply masked_shown. }
  destruct G as (ys & -> & G). exists ys. split; [reflexivity|exact G].
Qed.
Lemma aggregate_hidden feats : feats <> [] -> vs = [] ->
  aggregate n ex mf fns b feats masks = Ok (repeat 0 (fold_right Nat.add 0%nat (map (fun f => width fns (length f)) feats))).
Proof.
  intros F V. rewrite aggregate_is by exact F. clear F. rewrite prepared_map.
  assert (G : rmap (reduction n fns w0) (map (map (fun c => if mf then mask_target b c else c)) feats) = Ok (map (fun f => repeat 0 (width fns (length f))) feats)).
  { induction feats as [|f feats IH]; [reflexivity|]. cbn [map rmap]. rewrite (reduction_hidden n _ fns w0 _ w0_visible V Hn Hf). cbn [rbind].
    rewrite IH. cbn [rbind]. rewrite map_length. reflexivity. }
  rewrite G. cbn [rbind]. f_equal. clear G. induction feats as [|f feats IH]; [reflexivity|]. cbn [map concat fold_right]. rewrite IH, repeat_app. reflexivity.
Qed.
Lemma aggregate_width feats y : feats <> [] -> aggregate n ex mf fns b feats masks = Ok y ->
  length y = fold_right Nat.add 0%nat (map (fun f => width fns (length f)) feats).
Proof.
  intros F. rewrite aggregate_is by exact F. clear F. rewrite prepared_map. revert y. induction feats as [|f feats IH]; intros y E; [cbn in E; injection E as <-; reflexivity|].
  cbn [map rmap] in E. destruct (reduction n fns w0 _) as [a|] eqn:R0; [|discriminate]. cbn [rbind] in E.
  destruct (rmap _ _) as [rs|]; [|discriminate]. cbn [rbind] in E. injection E as <-. cbn [concat map fold_right]. rewrite app_length.
  rewrite (reduction_width _ _ _ _ _ R0), map_length. f_equal. apply IH. reflexivity.
Qed.
Lemma pooled_one ls y y' : has MAX fns = false -> pooled fns ls y -> pooled fns ls y' -> y = y'.
Proof. intros M (m & -> & A) (m' & -> & B). rewrite M in A, B. subst. reflexivity. Qed.
Lemma aggregate_blind feats feats' : has MAX fns = false ->
  Forall2 (Forall2 (fun c c' => forall v, (v < n)%nat -> visible ex b masks v = true -> shown mf b c v = shown mf b c' v)) feats feats' ->
  aggregate n ex mf fns b feats masks = aggregate n ex mf fns b feats' masks.
Proof.
  intros M F2. destruct feats as [|f0 fs0] eqn:EF; [inversion F2; reflexivity|]. rewrite <- EF in *. assert (F : feats <> []) by (rewrite EF; discriminate).
  assert (F' : feats' <> []) by (intros ->; rewrite EF in F2; inversion F2). clear EF.
  assert (L : Forall2 (fun f f' => length f = length f') feats feats').
  { clear F F'. induction F2 as [|f f' l l' A _ IH]; constructor; [|exact IH]. induction A; cbn; congruence. }
  destruct vs as [|v0 r0] eqn:EV.
  - rewrite !aggregate_hidden by assumption. do 2 f_equal. f_equal. clear - L. induction L as [|f f' l l' A _ IH]; [reflexivity|]. cbn [map]. rewrite A, IH. reflexivity.
  - assert (V : vs <> []) by (rewrite EV; discriminate). destruct (aggregate_pooled feats F V) as (ys & -> & P); [intros Z; congruence|].
    destruct (aggregate_pooled feats' F' V) as (ys' & -> & P'); [intros Z; congruence|]. f_equal. f_equal. clear F F' L EV V.
    revert ys ys' P P'. induction F2 as [|f f' l l' A _ IH]; intros ys ys' P P'; inversion P; inversion P'; subst; [reflexivity|]. f_equal.
    + eapply pooled_one; [exact M|eassumption|].
      replace (map (fun c => map (shown mf b c) vs) f) with (map (fun c => map (shown mf b c) vs) f'); [eassumption|].
      clear - A. induction A as [|c c' r r' H _ IH]; [reflexivity|]. cbn [map]. rewrite IH. f_equal. apply map_ext_in. intros v Iv. symmetry.
      unfold visible_views in Iv. apply filter_In in Iv. destruct Iv as [I1 I2]. apply in_seq in I1. apply H; [lia|exact I2].
    + apply IH; assumption.
Qed.
End aggregate.
(* ---- the reported dimension ---- *)
Lemma fn_eqb_eq a b : fn_eqb a b = true <-> a = b.
Proof. destruct a, b; cbn; split; congruence. Qed.
Lemma has_In f l : has f l = true <-> In f l.
Proof.
  unfold has. rewrite existsb_exists. split; [intros (x & I & E); apply fn_eqb_eq in E; subst; exact I|]. intros I. exists f. split; [exact I|apply fn_eqb_eq; reflexivity].
Qed.
Lemma dims_width k fns : NoDup fns -> fold_right Nat.add 0%nat (map (fn_dim k) fns) = width fns k.
Proof.
  induction 1 as [|f fns I _ IH]; [reflexivity|]. cbn [map fold_right]. rewrite IH. unfold width.
  assert (Q : has f fns = false) by (destruct (has f fns) eqn:E; [apply has_In in E; contradiction|reflexivity]).
  destruct f; cbn [has existsb fn_eqb orb fn_dim]; rewrite Q; unfold has; lia.
Qed.
Lemma width_dim fns (f : list channel) : NoDup fns -> fns <> [] -> fold_right Nat.add 0%nat (map (fun f : list channel => width fns (length f)) [f]) = aggregated_dim fns [length f].
Proof.
  intros D F. unfold aggregated_dim. cbn [map fold_right]. rewrite Nat.add_0_r. destruct fns; [contradiction|]. rewrite Nat.add_0_r. symmetry. apply dims_width, D.
Qed.
