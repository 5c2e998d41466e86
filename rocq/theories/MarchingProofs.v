(* How the vertex and face lists of marching cubes grow. *)
From Verif Require Import Base RBase Geom Marching.
Local Open Scope nat_scope.

Fixpoint chunk3 {A} (l : list A) : list (A * A * A) := match l with a :: b :: c :: r => (a, b, c) :: chunk3 r | _ => [] end.
Fixpoint take_while {A} (p : A -> bool) (l : list A) : list A := match l with [] => [] | x :: l => if p x then x :: take_while p l else [] end.
Definition map3 {A B} (f : A -> B) (t : A * A * A) : B * B * B := let '(a, b, c) := t in (f a, f b, f c).
Definition list3 {A} (t : A * A * A) : list A := let '(a, b, c) := t in [a; b; c].

Lemma chunk3_map {A B} (f : A -> B) l : chunk3 (map f l) = map (map3 f) (chunk3 l).
Proof.
  assert (G : forall n l, length l <= n -> chunk3 (map f l) = map (map3 f) (chunk3 l)).
  { induction n as [|n IH]; intros [|a [|b [|c r]]] H; cbn in *; try reflexivity; try lia. rewrite IH by lia. reflexivity. }
  now apply (G (length l)).
Qed.
Lemma chunk3_flat {A} (l : list A) n : length l = 3 * n -> flat_map list3 (chunk3 l) = l.
Proof.
  revert l. induction n as [|n IH]; intros l H; [destruct l; [reflexivity|discriminate]|]. destruct l as [|a [|b [|c r]]]; cbn in H; try lia. cbn. rewrite IH by lia. reflexivity.
Qed.

Lemma combine_app_eq {A B} (a a' : list A) (b b' : list B) : length a = length b -> combine (a ++ a') (b ++ b') = combine a b ++ combine a' b'.
Proof. revert b. induction a as [|x a IH]; intros [|y b] H; cbn in *; try lia; [reflexivity|]. f_equal. apply IH. lia. Qed.
Lemma take_while_in {A} (p : A -> bool) l x : In x (take_while p l) -> In x l /\ p x = true.
Proof. induction l as [|y l IH]; [easy|]. cbn. destruct (p y) eqn:E; [|easy]. intros [->|H]; [auto|]. destruct (IH H). auto. Qed.
Lemma chunk3_in {L} (l : list L) : forall t e, In t (chunk3 l) -> In e (list3 t) -> In e l.
Proof.
  assert (H : forall n (l : list L), length l <= n -> forall t e, In t (chunk3 l) -> In e (list3 t) -> In e l).
  { induction n as [|n IH]; intros [|a [|b [|c r]]] Hl t e; cbn in *; try easy; try lia. intros [<-|H] He; [cbn in He; intuition|]. right. right. right. eapply IH; eauto. lia. }
  intros t e. now apply (H (length l)).
Qed.

Section Gen.
(* links L with their keys K and positions *)
Context {L : Type} (leqb : L -> L -> bool).
Hypothesis leqb_spec : forall e e', leqb e e' = true <-> e = e'.

Definition mem (e : L) (s : list L) : bool := existsb (leqb e) s.
Definition ins (s : list L) (e : L) : list L := if mem e s then s else s ++ [e].
Definition nub (l : list L) : list L := fold_left ins l [].
Fixpoint index_of (e : L) (s : list L) : nat := match s with [] => 0 | x :: s => if leqb e x then 0 else S (index_of e s) end.
Lemma leqb_refl e : leqb e e = true. Proof. now apply leqb_spec. Qed.
Lemma mem_in e s : mem e s = true <-> In e s.
Proof. unfold mem. rewrite existsb_exists. split; [intros (x & H & E); apply leqb_spec in E; now subst|intros H; exists e; split; [exact H|apply leqb_refl]]. Qed.
Lemma ins_in s e x : In x (ins s e) <-> In x s \/ x = e.
Proof. unfold ins. destruct (mem e s) eqn:E; [apply mem_in in E; split; [auto|intros [H| ->]; auto]|]. rewrite in_app_iff. cbn. intuition. Qed.
Lemma ins_nodup s e : NoDup s -> NoDup (ins s e).
Proof.
  unfold ins. destruct (mem e s) eqn:E; [auto|]. intros H. apply NoDup_rev in H. rewrite <- (rev_involutive (s ++ [e])). apply NoDup_rev. rewrite rev_app_distr. cbn. constructor; [|exact H]. rewrite <- in_rev. intros C. apply mem_in in C. congruence.
Qed.
Lemma ins_prefix s e : exists r, ins s e = s ++ r.
Proof. unfold ins. destruct (mem e s); [exists []; now rewrite app_nil_r|eauto]. Qed.
Lemma fold_prefix l : forall s, exists r, fold_left ins l s = s ++ r.
Proof.
  induction l as [|e l IH]; intros s; cbn [fold_left]; [exists []; now rewrite app_nil_r|]. destruct (ins_prefix s e) as (r & ->). destruct (IH (s ++ r)) as (r' & ->). exists (r ++ r'). now rewrite app_assoc.
Qed.
Lemma fold_in l : forall s x, In x (fold_left ins l s) <-> In x s \/ In x l.
Proof. induction l as [|e l IH]; intros s x; cbn [fold_left In]; [tauto|]. rewrite IH, ins_in. intuition. Qed.
Lemma fold_nodup l : forall s, NoDup s -> NoDup (fold_left ins l s).
Proof. induction l as [|e l IH]; intros s H; [exact H|]. cbn [fold_left]. apply IH, ins_nodup, H. Qed.
Lemma nub_in l x : In x (nub l) <-> In x l.
Proof. unfold nub. rewrite fold_in. cbn. tauto. Qed.
Lemma nub_nodup l : NoDup (nub l).
Proof. apply fold_nodup. constructor. Qed.
Lemma index_app e s r : In e s -> index_of e (s ++ r) = index_of e s.
Proof.
  induction s as [|x s IH]; intros H; [easy|]. cbn [app index_of]. destruct (leqb e x) eqn:E; [reflexivity|]. f_equal. apply IH. destruct H as [->|H]; [rewrite leqb_refl in E; discriminate|exact H].
Qed.
Lemma index_new e s : ~ In e s -> index_of e (s ++ [e]) = length s.
Proof.
  induction s as [|x s IH]; intros H; cbn [app index_of length]; [now rewrite leqb_refl|]. destruct (leqb e x) eqn:E; [exfalso; apply H; left; symmetry; now apply leqb_spec|]. f_equal. apply IH. intros C. apply H. now right.
Qed.
Lemma index_lt e s : In e s -> index_of e s < length s.
Proof. induction s as [|x s IH]; intros H; [easy|]. cbn [index_of length]. destruct (leqb e x) eqn:E; [lia|]. destruct H as [->|H]; [rewrite leqb_refl in E; discriminate|]. specialize (IH H). lia. Qed.
Lemma index_nth e s : In e s -> nth_error s (index_of e s) = Some e.
Proof. induction s as [|x s IH]; intros H; [easy|]. cbn [index_of]. destruct (leqb e x) eqn:E; [apply leqb_spec in E; now subst|]. destruct H as [->|H]; [rewrite leqb_refl in E; discriminate|]. cbn [nth_error]. now apply IH. Qed.
Lemma index_inj e e' s : In e s -> In e' s -> index_of e s = index_of e' s -> e = e'.
Proof. intros H H' E. apply index_nth in H, H'. rewrite E in H. congruence. Qed.

Context {K : Type} (eqb : K -> K -> bool) (key : L -> K) (G : L -> Prop).
Lemma ins_G s e : G e -> Forall G s -> Forall G (ins s e).
Proof. intros He Hs. rewrite Forall_forall in *. intros x Hx. apply ins_in in Hx as [Hx| ->]; auto. Qed.
Lemma fold_G l : forall s, Forall G l -> Forall G s -> Forall G (fold_left ins l s).
Proof. intros s Hl Hs. rewrite Forall_forall in *. intros x Hx. apply fold_in in Hx as [Hx|Hx]; auto. Qed.
Hypothesis key_inj : forall e e', G e -> G e' -> eqb (key e) (key e') = leqb e e'.
Definition dict (s : list L) : list (K * nat) := combine (map key s) (seq 0 (length s)).
Lemma lookup_dict e s : G e -> Forall G s -> lookup eqb (key e) (dict s) = if mem e s then Some (index_of e s) else None.
Proof.
  intros He. unfold dict. assert (H : forall a, Forall G s -> lookup eqb (key e) (combine (map key s) (seq a (length s))) = if mem e s then Some (a + index_of e s) else None).
  { induction s as [|x s IH]; intros a Hs; [reflexivity|]. apply Forall_cons_iff in Hs as [Hx Hs]. cbn [map length seq combine lookup mem existsb index_of]. rewrite key_inj by assumption. destruct (leqb e x); [cbn; f_equal; lia|]. cbn [orb]. rewrite (IH (S a) Hs). unfold mem. destruct (existsb (leqb e) s); [f_equal; lia|reflexivity]. }
  intros Hs. now rewrite H.
Qed.
Lemma dict_snoc s e : dict (s ++ [e]) = dict s ++ [(key e, length s)].
Proof. unfold dict. rewrite map_app, app_length. cbn [length map]. rewrite Nat.add_1_r, seq_S. cbn [Nat.add]. rewrite combine_app_eq; [reflexivity|now rewrite map_length, seq_length]. Qed.

Context (differ : vec3 -> vec3 -> bool) (pos : L -> vec3).
Definition idx3 (s : list L) (t : L * L * L) : nat * nat * nat := map3 (fun e => index_of e s) t.
(* the state for the links s met so far and the triangles T stored so far *)
Definition state_of (s : list L) (T : list (L * L * L)) : @mesh_state K := MS (map pos s) (map (idx3 s) T) (dict s).
Definition inside (s : list L) (T : list (L * L * L)) : Prop := Forall (fun t => forall e, In e (list3 t) -> In e s) T.
Lemma idx3_ext s r t : (forall e, In e (list3 t) -> In e s) -> idx3 (s ++ r) t = idx3 s t.
Proof. destruct t as [[a b] c]. intros H. unfold idx3, map3. rewrite !index_app by (apply H; cbn; auto). reflexivity. Qed.
Lemma map_idx3_ext s r T : inside s T -> map (idx3 (s ++ r)) T = map (idx3 s) T.
Proof. intros H. apply map_ext_in. intros t Ht. apply idx3_ext. unfold inside in H. rewrite Forall_forall in H. now apply H. Qed.
Lemma add_vertex_state s fs e : G e -> Forall G s -> add_vertex eqb (MS (map pos s) fs (dict s)) (key e, pos e) = (MS (map pos (ins s e)) fs (dict (ins s e)), index_of e (ins s e)).
Proof.
  intros He Hs. unfold add_vertex. cbn [fst snd ms_uniq ms_verts ms_faces]. rewrite lookup_dict by assumption. unfold ins. destruct (mem e s) eqn:E; [reflexivity|]. rewrite map_length, map_app, dict_snoc. cbn [map]. rewrite index_new; [reflexivity|]. intros C. apply mem_in in C. congruence.
Qed.
Definition good3 (t : L * L * L) : bool := let '(a, b, c) := t in differ (pos a) (pos b) && differ (pos b) (pos c) && differ (pos c) (pos a).
Definition ent (e : L) : K * vec3 := (key e, pos e).

Lemma triple_step n s T a b c : (n mod 3 = 0) -> G a -> G b -> G c -> Forall G s -> inside s T ->
  rfold (add_corner eqb differ) (combine (seq n 3) (map ent [a; b; c])) ([], state_of s T) =
  if good3 (a, b, c) then Ok ([], state_of (fold_left ins [a; b; c] s) (T ++ [(a, b, c)])) else Ok (map ent [a; b; c], state_of s T).
Proof.
  intros Hn Ha Hb Hc Hs HT. cbn [seq map combine rfold]. unfold add_corner at 1. cbn [fst snd app].
  assert (M1 : (n + 1) mod 3 = 1) by (rewrite Nat.add_mod, Hn by lia; reflexivity). assert (M2 : (S n + 1) mod 3 = 2) by (replace (S n + 1) with (n + 2) by lia; rewrite Nat.add_mod, Hn by lia; reflexivity). assert (M3 : (S (S n) + 1) mod 3 = 0) by (replace (S (S n) + 1) with (n + 3) by lia; rewrite Nat.add_mod, Hn by lia; reflexivity).
  rewrite M1. cbn [Nat.eqb rbind]. unfold add_corner at 1. cbn [fst snd app]. rewrite M2. cbn [Nat.eqb rbind]. unfold add_corner at 1. cbn [fst snd app]. rewrite M3. cbn [Nat.eqb]. unfold good3, ent at 1 2 3 4 5 6. cbn [snd].
  destruct (differ (pos a) (pos b) && differ (pos b) (pos c) && differ (pos c) (pos a)); [|reflexivity].
  unfold state_of at 1, ent. rewrite (add_vertex_state s _ a) by assumption. pose proof (ins_G s a Ha Hs) as H1. rewrite (add_vertex_state (ins s a) _ b) by assumption. pose proof (ins_G _ b Hb H1) as H2. rewrite (add_vertex_state _ _ c) by assumption. cbn [rbind ms_verts ms_faces ms_uniq fold_left]. do 2 f_equal. unfold state_of. rewrite map_app. cbn [map].
  destruct (ins_prefix s a) as (r1 & E1). destruct (ins_prefix (ins s a) b) as (r2 & E2). destruct (ins_prefix (ins (ins s a) b) c) as (r3 & E3). f_equal. f_equal.
  - rewrite E3, E2, E1, <- !app_assoc. symmetry. apply map_idx3_ext, HT.
  - unfold idx3, map3.
    assert (A1 : index_of a (ins (ins (ins s a) b) c) = index_of a (ins s a)) by (rewrite E3, E2, <- app_assoc; apply index_app, ins_in; auto).
    assert (A2 : index_of b (ins (ins (ins s a) b) c) = index_of b (ins (ins s a) b)) by (rewrite E3; apply index_app, ins_in; auto).
    now rewrite A1, A2.
Qed.
Lemma stuck l : forall n a b c tri s, good3 (a, b, c) = false -> n mod 3 = 0 \/ True ->
  rfold (add_corner eqb differ) (combine (seq n (length l)) (map ent l)) (map ent [a; b; c] ++ tri, s) = Ok (map ent [a; b; c] ++ tri ++ map ent l, s).
Proof.
  induction l as [|e l IH]; intros n a b c tri s Hg _; [cbn; now rewrite app_nil_r|]. cbn [length seq map combine rfold]. unfold add_corner at 1. cbn [fst snd app map].
  assert (E : forall X Y : result (list (K * vec3) * @mesh_state K), (if (n + 1) mod 3 =? 0 then (if differ (snd (ent a)) (snd (ent b)) && differ (snd (ent b)) (snd (ent c)) && differ (snd (ent c)) (snd (ent a)) then X else Y) else Y) = Y) by (intros; unfold ent; cbn [snd]; unfold good3 in Hg; rewrite Hg; now destruct ((n + 1) mod 3 =? 0)).
  rewrite E. cbn [rbind]. change (ent a :: ent b :: ent c :: tri ++ [ent e]) with (map ent [a; b; c] ++ (tri ++ [ent e])). rewrite IH by auto. rewrite <- app_assoc. reflexivity.
Qed.
Lemma rfold_app' {S A} (f : S -> A -> result S) l l' s : rfold f (l ++ l') s = (s' <- rfold f l s ;; rfold f l' s').
Proof. revert s. induction l as [|x l IH]; intros s; [reflexivity|]. cbn [app rfold]. destruct (f s x); [apply IH|reflexivity]. Qed.
Lemma take_row m : forall n row s T, length row = 3 * m -> n mod 3 = 0 -> Forall G row -> Forall G s -> inside s T ->
  exists tri, rfold (add_corner eqb differ) (combine (seq n (length row)) (map ent row)) ([], state_of s T) =
  Ok (tri, state_of (fold_left ins (flat_map list3 (take_while good3 (chunk3 row))) s) (T ++ take_while good3 (chunk3 row))).
Proof.
  induction m as [|m IH]; intros n row s T Hl Hn Hr Hs HT.
  - destruct row; [|discriminate]. exists []. cbn. now rewrite app_nil_r.
  - destruct row as [|a [|b [|c row]]]; cbn in Hl; try lia. apply Forall_cons_iff in Hr as [Ha Hr]. apply Forall_cons_iff in Hr as [Hb Hr]. apply Forall_cons_iff in Hr as [Hc Hr].
    assert (E : combine (seq n (length (a :: b :: c :: row))) (map ent (a :: b :: c :: row)) = combine (seq n 3) (map ent [a; b; c]) ++ combine (seq (n + 3) (length row)) (map ent row)) by (replace (n + 3) with (S (S (S n))) by lia; reflexivity).
    rewrite E, rfold_app', triple_step by assumption. cbn [chunk3 take_while]. destruct (good3 (a, b, c)) eqn:Eg.
    + cbn [rbind]. destruct (IH (n + 3) row (fold_left ins [a; b; c] s) (T ++ [(a, b, c)])) as (tri & E').
      * lia.
      * rewrite Nat.add_mod, Hn by lia. reflexivity.
      * exact Hr.
      * apply fold_G; [repeat constructor; assumption|exact Hs].
      * unfold inside in *. apply Forall_app. split; [|repeat constructor; intros e He; apply fold_in; right; exact He]. rewrite Forall_forall in *. intros t Ht e He. apply fold_in. left. exact (HT t Ht e He).
      * exists tri. rewrite E'. cbn [flat_map]. rewrite fold_left_app, <- app_assoc. reflexivity.
    + cbn [rbind]. exists (map ent [a; b; c] ++ map ent row). rewrite <- (app_nil_r (map ent [a; b; c])) at 1. rewrite stuck by auto. cbn [app flat_map fold_left]. rewrite app_nil_r. reflexivity.
Qed.
Lemma add_cube_ok row s T m : length row = 3 * m -> Forall G row -> Forall G s -> inside s T ->
  add_cube eqb differ (state_of s T) (map ent row) = Ok (state_of (fold_left ins (flat_map list3 (take_while good3 (chunk3 row))) s) (T ++ take_while good3 (chunk3 row))).
Proof. intros Hl Hr Hs HT. unfold add_cube. rewrite map_length. destruct (take_row m 0 row s T Hl eq_refl Hr Hs HT) as (tri & E). rewrite E. reflexivity. Qed.
Definition stored (row : list L) : list (L * L * L) := take_while good3 (chunk3 row).
Lemma stored_in row t e : In t (stored row) -> In e (list3 t) -> In e row.
Proof. intros H. apply take_while_in in H as (H & _). now apply chunk3_in. Qed.
(* many cubes *)
Lemma add_cubes rows : forall s T, Forall (fun row => Forall G row /\ exists m, length row = 3 * m) rows -> Forall G s -> inside s T ->
  rfold (fun st row => add_cube eqb differ st (map ent row)) rows (state_of s T) = Ok (state_of (fold_left ins (flat_map list3 (flat_map stored rows)) s) (T ++ flat_map stored rows)).
Proof.
  induction rows as [|row rows IH]; intros s T Hr Hs HT; [cbn; now rewrite app_nil_r|]. apply Forall_cons_iff in Hr as [(H1 & m & H2) Hr]. cbn [rfold flat_map]. rewrite (add_cube_ok row s T m) by assumption. cbn [rbind]. fold (stored row). rewrite IH.
  - rewrite flat_map_app, fold_left_app, <- app_assoc. reflexivity.
  - exact Hr.
  - apply fold_G; [|exact Hs]. rewrite Forall_forall in *. intros e He. apply in_flat_map in He as (t & Ht & He). apply H1. eapply stored_in; eauto.
  - unfold inside in *. apply Forall_app. split.
    + rewrite Forall_forall in *. intros t Ht e He. apply fold_in. left. exact (HT t Ht e He).
    + rewrite Forall_forall. intros t Ht e He. apply fold_in. right. apply in_flat_map. eauto.
Qed.
End Gen.
