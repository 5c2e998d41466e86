(* Sums over pairs. *)
From Coq Require Import Permutation Sorted.
From Verif Require Import Base Packing RBase Geom FaceAreas FaceAreasSpec MeshesSpec Laplace LaplaceSpec Consistency ConsistencySpec.
Local Open Scope R_scope.

Definition psum {A} (G : A * A -> R) (l : list A) : R := rsum (map G (two_of l)).
Lemma psum_cons {A} (G : A * A -> R) x l : psum G (x :: l) = rsum (map (fun y => G (x, y)) l) + psum G l.
Proof. unfold psum. cbn [two_of]. rewrite map_app, rsum_app, map_map. reflexivity. Qed.
Lemma psum_nil {A} (G : A * A -> R) : psum G [] = 0.
Proof. reflexivity. Qed.
Lemma psum_perm {A} (G : A * A -> R) l l' : Permutation l l' -> (forall x y, In x l -> In y l -> G (x, y) = G (y, x)) -> psum G l = psum G l'.
Proof.
  intros H. induction H as [|x l l' H IH|x y l|l l' l'' H1 IH1 H2 IH2]; intros Hs; [reflexivity| | |].
  - rewrite !psum_cons, IH by (intros; apply Hs; now right). f_equal. now apply rsum_perm, Permutation_map.
  - rewrite !psum_cons. cbn [map]. rewrite !rsum_cons, (Hs x y) by (cbn; auto). ring.
  - rewrite IH1 by auto. apply IH2. intros x y Hx Hy. apply Hs; (eapply Permutation_in; [apply Permutation_sym; exact H1|auto]).
Qed.
Lemma psum_app {A} (G : A * A -> R) a b : psum G (a ++ b) = psum G a + psum G b + rsum (map (fun x => rsum (map (fun y => G (x, y)) b)) a).
Proof.
  induction a as [|x a IH]; [cbn [app map]; rewrite psum_nil, rsum_nil; ring|]. cbn [app]. rewrite !psum_cons, IH, map_app, rsum_app. cbn [map]. rewrite rsum_cons. ring.
Qed.
Lemma psum_ext {A} (G H : A * A -> R) l : (forall x y, In x l -> In y l -> G (x, y) = H (x, y)) -> psum G l = psum H l.
Proof.
  induction l as [|x l IH]; intros E; [reflexivity|]. rewrite !psum_cons. f_equal.
  - apply rsum_map_ext. intros y Hy. apply E; [now left|now right].
  - apply IH. intros; apply E; now right.
Qed.
Lemma psum_map {A B} (f : A -> B) (G : B * B -> R) l : psum G (map f l) = psum (fun p => G (f (fst p), f (snd p))) l.
Proof. induction l as [|x l IH]; [reflexivity|]. cbn [map]. rewrite !psum_cons, IH, map_map. reflexivity. Qed.
Lemma psum_apart {A} (G : A * A -> R) a b : (forall x y, In x a -> In y b -> G (x, y) = 0) -> psum G (a ++ b) = psum G a + psum G b.
Proof. intros H. rewrite psum_app. rewrite (rsum_map_zero _ a); [ring|]. intros x Hx. apply rsum_map_zero. intros y Hy. now apply H. Qed.
Lemma psum_filter {A} (S : A * A -> bool) (g : A * A -> R) l : rsum (map g (filter S (two_of l))) = psum (fun h => if S h then g h else 0) l.
Proof. unfold psum. induction (two_of l) as [|h t IH]; [reflexivity|]. cbn [filter map]. rewrite rsum_cons. destruct (S h); cbn [map]; rewrite ?rsum_cons, IH; ring. Qed.

(* ---- find_verts ---- *)
Section groups.
Context {A : Type} (d : A) (g : A * A -> R).
Definition at_pair (l : list A) (p : nat * nat) : R := g (nth (fst p) l d, nth (snd p) l d).
Definition js (start n : nat) : list (nat * nat) := flat_map (fun j => map (fun i => (start + i, start + j)%nat) (seq 0 j)) (seq 0 n).
Lemma seq_last n : seq 0 (S n) = seq 0 n ++ [n].
Proof. rewrite seq_S. reflexivity. Qed.
Lemma firstn_last (l : list A) n : (n < length l)%nat -> firstn (S n) l = firstn n l ++ [nth n l d].
Proof. revert n. induction l as [|x l IH]; intros [|n] H; cbn in *; try lia; [reflexivity|]. f_equal. apply IH. lia. Qed.
Lemma one_group pre l suf n : (n <= length l)%nat -> rsum (map (at_pair (pre ++ l ++ suf)) (js (length pre) n)) = psum g (firstn n l).
Proof.
  induction n as [|n IH]; intros H; [reflexivity|]. unfold js in *. rewrite seq_last, flat_map_app, map_app, rsum_app, IH by lia. cbn [flat_map]. rewrite app_nil_r.
  rewrite firstn_last by lia. rewrite psum_app. change (psum g [nth n l d]) with 0. rewrite map_map.
  replace (map (fun i => at_pair (pre ++ l ++ suf) (length pre + i, length pre + n)%nat) (seq 0 n)) with (map (fun x => rsum (map (fun y => g (x, y)) [nth n l d])) (firstn n l)); [ring|].
  apply nth_ext with (d := 0) (d' := 0); [rewrite !map_length, firstn_length, seq_length; lia|]. intros i Hi. rewrite map_length, firstn_length in Hi.
  assert (Hi' : (i < n)%nat) by lia.
  rewrite (nth_indep _ 0 (rsum (map (fun y => g (d, y)) [nth n l d]))) by (rewrite map_length, firstn_length; lia). rewrite (map_nth (fun x => rsum (map (fun y => g (x, y)) [nth n l d]))).
  rewrite (nth_indep _ 0 (at_pair (pre ++ l ++ suf) (length pre + 0, length pre + n)%nat)) by (rewrite map_length, seq_length; lia). rewrite (map_nth (fun i => at_pair (pre ++ l ++ suf) (length pre + i, length pre + n)%nat)), seq_nth by lia.
  unfold at_pair. cbn [fst snd map]. rewrite rsum_cons, rsum_nil. rewrite !(app_nth2_plus pre). rewrite !app_nth1 by lia. rewrite Nat.add_0_l. rewrite <- (firstn_skipn n l) at 3. rewrite app_nth1 by (rewrite firstn_length; lia). ring.
Qed.
Lemma all_groups gs : forall pre, rsum (map (at_pair (pre ++ concat gs)) (find_from (length pre) (map (@length A) gs))) = rsum (map (psum g) gs).
Proof.
  induction gs as [|l gs IH]; intros pre; [reflexivity|]. cbn [map find_from concat]. rewrite map_app, rsum_app, rsum_cons. f_equal.
  - transitivity (psum g (firstn (length l) l)); [apply one_group; lia|now rewrite firstn_all].
  - specialize (IH (pre ++ l)). rewrite app_length, <- app_assoc in IH. exact IH.
Qed.
Lemma find_bounds gs : forall start p, In p (find_from start gs) -> (start <= fst p < start + sum_nat gs /\ start <= snd p < start + sum_nat gs)%nat.
Proof.
  induction gs as [|n gs IH]; intros start p H; [easy|]. cbn [find_from] in H. cbn [sum_nat fold_right]. apply in_app_iff in H as [H|H].
  - apply in_flat_map in H as (j & Hj & H). apply in_map_iff in H as (i & <- & Hi). apply in_seq in Hj, Hi. cbn [fst snd]. unfold sum_nat. cbn [fold_right]. lia.
  - apply IH in H. unfold sum_nat in *. cbn [fold_right]. lia.
Qed.
End groups.

(* a list sorted by its keys is its groups one after the other *)
Section sorted.
Context {A : Type} (key : A -> Z).
Definition group (l : list A) (e : nat) : list A := filter (fun x => (key x =? Z.of_nat e)%Z) l.
Lemma filter_none (f : A -> bool) l : (forall x, In x l -> f x = false) -> filter f l = [].
Proof. induction l as [|x l IH]; intros H; [reflexivity|]. cbn. rewrite (H x) by now left. apply IH. intros; apply H; now right. Qed.
Lemma groups_from n : forall a l, StronglySorted Z.le (map key l) -> (forall x, In x l -> (Z.of_nat a <= key x < Z.of_nat (a + n))%Z) -> concat (map (group l) (seq a n)) = l.
Proof.
  induction n as [|n IH]; intros a l Hs Hr.
  - destruct l as [|x l]; [reflexivity|]. specialize (Hr x (or_introl eq_refl)). lia.
  - cbn [seq map concat].
    assert (E : l = group l a ++ filter (fun x => negb (key x =? Z.of_nat a)%Z) l).
    { clear IH. induction l as [|x l IHl]; [reflexivity|]. cbn [map] in Hs. apply StronglySorted_inv in Hs as [Hs Hx]. unfold group. cbn [filter]. destruct (Z.eqb_spec (key x) (Z.of_nat a)) as [C|C]; cbn [negb app].
      - f_equal. apply IHl; auto. intros; apply Hr; now right.
      - assert (N : forall y, In y l -> (key y =? Z.of_nat a)%Z = false). { intros y Hy. apply Z.eqb_neq. rewrite Forall_map, Forall_forall in Hx. specialize (Hx y Hy). specialize (Hr x (or_introl eq_refl)). lia. }
        rewrite (filter_none _ l) by exact N. cbn [app]. f_equal. clear -N. induction l as [|y l IH]; [reflexivity|]. cbn. rewrite (N y) by now left. cbn. f_equal. apply IH. intros; apply N; now right. }
    assert (S2 : StronglySorted Z.le (map key (filter (fun x => negb (key x =? Z.of_nat a)%Z) l))).
    { clear -Hs. induction l as [|x l IHl]; [constructor|]. cbn [map] in Hs. apply StronglySorted_inv in Hs as [Hs Hx]. cbn [filter]. destruct (negb _); [|auto]. cbn [map]. constructor; [auto|]. rewrite Forall_map, Forall_forall in *. intros y Hy. apply filter_In in Hy as [Hy _]. auto. }
    specialize (IH (S a) (filter (fun x => negb (key x =? Z.of_nat a)%Z) l) S2).
    assert (R2 : forall x, In x (filter (fun x => negb (key x =? Z.of_nat a)%Z) l) -> (Z.of_nat (S a) <= key x < Z.of_nat (S a + n))%Z).
    { intros x Hx. apply filter_In in Hx as [Hx N]. specialize (Hr x Hx). apply negb_true_iff, Z.eqb_neq in N. lia. }
    specialize (IH R2). rewrite E at 3. f_equal. rewrite <- IH at 1. f_equal. apply map_ext_in. intros e He. apply in_seq in He. unfold group.
    clear -He. induction l as [|x l IHl]; [reflexivity|]. cbn [filter]. destruct (Z.eqb_spec (key x) (Z.of_nat a)) as [C|C]; cbn [negb].
    + destruct (Z.eqb_spec (key x) (Z.of_nat e)); [lia|exact IHl].
    + cbn [filter]. destruct (key x =? Z.of_nat e)%Z; [f_equal|]; exact IHl.
Qed.
Lemma psum_groups (g : A * A -> R) es l : NoDup es -> psum (fun h => if (key (fst h) =? key (snd h))%Z then g h else 0) (concat (map (group l) es)) = rsum (map (psum g) (map (group l) es)).
Proof.
  induction 1 as [|e es He Hn IH]; [reflexivity|]. cbn [map concat]. rewrite rsum_cons, psum_apart, IH.
  - f_equal. apply psum_ext. intros x y Hx Hy. unfold group in *. apply filter_In in Hx as [_ Hx]. apply filter_In in Hy as [_ Hy]. apply Z.eqb_eq in Hx, Hy. cbn [fst snd]. rewrite Hx, Hy, Z.eqb_refl. reflexivity.
  - intros x y Hx Hy. unfold group in Hx. apply filter_In in Hx as [_ Hx]. apply Z.eqb_eq in Hx. apply in_concat in Hy as (gr & Hg & Hy). apply in_map_iff in Hg as (e' & <- & He'). unfold group in Hy. apply filter_In in Hy as [_ Hy]. apply Z.eqb_eq in Hy.
    cbn [fst snd]. rewrite Hx, Hy. destruct (Z.eqb_spec (Z.of_nat e) (Z.of_nat e')) as [C|C]; [|reflexivity]. apply Nat2Z.inj in C. now subst.
Qed.
(* the pairs find_verts lists, when edge_num counts the keys of a sorted list *)
Lemma find_psum (d : A) (g : A * A -> R) l n : StronglySorted Z.le (map key l) -> (forall x, In x l -> (0 <= key x < Z.of_nat n)%Z) ->
  rsum (map (at_pair d g l) (find_verts (map (fun e => length (filter (fun z => (z =? Z.of_nat e)%Z) (map key l))) (seq 0 n)))) = psum (fun h => if (key (fst h) =? key (snd h))%Z then g h else 0) l.
Proof.
  intros Hs Hr. pose proof (groups_from n 0 l Hs Hr) as E. transitivity (psum (fun h => if (key (fst h) =? key (snd h))%Z then g h else 0) (concat (map (group l) (seq 0 n)))); [|now rewrite E]. rewrite psum_groups by apply seq_NoDup. rewrite <- (all_groups d g (map (group l) (seq 0 n)) []). cbn [app length]. rewrite E. unfold find_verts. do 3 f_equal.
  rewrite map_map. apply map_ext. intros e. unfold group. clear. induction l as [|x l IH]; [reflexivity|]. cbn. destruct (key x =? Z.of_nat e)%Z; cbn; now rewrite IH.
Qed.
End sorted.
