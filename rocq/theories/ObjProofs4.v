(* save_obj: what is written, and reading it back. *)
From Coq Require Import Ascii String ZArith NArith Reals Bool List Lia.
From Verif Require Import Base RBase Text TextSpec TextProofs Ply PlySpec PlyProofs PlyProofs5 Obj ObjSpec ObjProofs ObjProofs2 ObjProofs3.
Import ListNotations.
Local Open Scope list_scope.
Local Open Scope Z_scope.

Lemma digit_word ds : Forall (fun d => (d < 10)%N) ds -> Forall (fun c => str_space c = false) (map char_of ds).
Proof.
  intros H. apply Forall_map. eapply Forall_impl; [|exact H]. intros d Hd. cbv beta in Hd. assert (E : d = 0%N \/ d = 1%N \/ d = 2%N \/ d = 3%N \/ d = 4%N \/ d = 5%N \/ d = 6%N \/ d = 7%N \/ d = 8%N \/ d = 9%N) by lia.
  repeat (destruct E as [->|E]; [reflexivity|]). subst. reflexivity.
Qed.
Lemma fixed_word d m : word (print_fixed d m).
Proof.
  split; [apply good_fixed|]. unfold print_fixed, print_nat. cbv zeta. set (n := Z.abs_N m). set (p := (10 ^ N.of_nat d)%N). destruct (digits_ok (n / p)) as (E & F & NE). assert (P0 : (p <> 0)%N) by (apply N.pow_nonzero; lia).
  apply Forall_app. split; [destruct (m <? 0); repeat constructor|]. apply Forall_app. split; [apply digit_word; exact F|]. destruct d as [|d']; [constructor|]. constructor; [reflexivity|]. apply digit_word. apply pad_ok; [apply N.mod_lt; exact P0|lia].
Qed.
Lemma int_word z : Forall (fun c => str_space c = false) (print_int z).
Proof. destruct (print_ok z) as [_ H]. eapply Forall_impl; [|exact H]. now intros c [? _]. Qed.
Lemma corner_word c : word (show_corner c).
Proof.
  destruct c as [v t n]. unfold show_corner. cbn [c_vert c_tex c_norm]. split; [intros E; apply app_eq_nil in E as [E _]; now apply int_nonempty in E|]. apply Forall_app. split; [apply int_word|].
  destruct t as [t|], n as [n|]; repeat first [apply Forall_nil | apply int_word | apply Forall_cons; [reflexivity|] | apply Forall_app; split].
Qed.
Lemma spaced_more ws l : ws <> [] -> spaced ws l -> spaced ws (sp :: l).
Proof. intros Hn H. destruct H as [|b w ws l Hb Hw Hl H]; [easy|]. change (sp :: b ++ w ++ l) with ((sp :: b) ++ w ++ l). apply spaced_word; auto. Qed.
Lemma spaced_join ws : Forall word ws -> spaced ws (join sp ws).
Proof.
  induction 1 as [|w ws Hw H IH]; [apply spaced_end; constructor|]. destruct ws as [|w2 ws].
  - cbn [join]. replace w with ([] ++ w ++ []) at 2 by now rewrite app_nil_r. apply spaced_word; auto; apply spaced_end; constructor.
  - change (join sp (w :: w2 :: ws)) with ([] ++ w ++ (sp :: join sp (w2 :: ws))). apply spaced_word; auto. now apply spaced_more.
Qed.
Lemma keyword_join k ws : Forall word ws -> keyword_line k ws (str k ++ sp :: join sp ws).
Proof. intros H. exists [], (join sp ws). split; [reflexivity|]. split; [constructor|now apply spaced_join]. Qed.
Definition printed (d : nat) (row : list R) : list dec := map (fun x => {| man := fixed d x; exp := Z.of_nat d |}) row.
Lemma numbers_show d row : numbers d row = join sp (map show_dec (printed d row)).
Proof. unfold numbers, printed. rewrite map_map. f_equal. apply map_ext. intros x. unfold show_dec, print_real. cbn. now rewrite Nat2Z.id. Qed.
Lemma printed_words d row : Forall word (map show_dec (printed d row)).
Proof. apply Forall_map, Forall_forall. intros x _. apply fixed_word. Qed.
Lemma printed_readable d row : Forall readable (printed d row).
Proof. apply Forall_map, Forall_forall. intros x _. unfold readable. cbn. lia. Qed.
Lemma printed_rounds d row : Forall2 (rounds_to d) row (printed d row).
Proof. induction row; cbn; constructor; auto. apply fixed_rounds. Qed.
Lemma word_line w : word w -> one_line w.
Proof. intros [_ H]. eapply Forall_impl; [|exact H]. intros c Hc. now apply not_nl. Qed.
Lemma keyword_one_line k ws : one_line (str k) -> Forall word ws -> one_line (str k ++ sp :: join sp ws).
Proof. intros Hk H. apply Forall_app. split; [exact Hk|]. constructor; [reflexivity|]. apply join_forall; [reflexivity|]. eapply Forall_impl; [|exact H]. apply word_line. Qed.

Definition nat_at (l : list Z) (j : nat) : Z := nth j l 0.
Definition written (f : list Z) (uv nm : option (list Z)) : list corner :=
  map (fun j => C (nat_at f j + 1) (option_map (fun u => nat_at u j + 1) uv) (option_map (fun u => nat_at u j + 1) nm)) [0; 1; 2]%nat.
Lemma rget_at (l : list Z) j : (j < length l)%nat -> rget l j = Ok (nat_at l j).
Proof. intros H. unfold rget, nat_at. now rewrite (nth_error_nth' l 0 H). Qed.
Lemma face_words_ok f uv nm : length f = 3%nat -> each (fun u => length u = 3%nat) uv -> each (fun u => length u = 3%nat) nm -> face_words f uv nm = Ok (map show_corner (written f uv nm)).
Proof.
  intros Hf Hu Hn. unfold face_words. rewrite Hf. change (seq 0 3) with [0; 1; 2]%nat. unfold written. rewrite map_map. apply rmap_all. intros j Hj.
  assert (Hj3 : (j < 3)%nat) by (cbn in Hj; intuition lia). rewrite rget_at by lia. cbn [rbind]. unfold show_corner. cbn [c_vert c_tex c_norm].
  destruct nm as [n|], uv as [u|]; cbn [each option_map] in *; rewrite ?(rget_at u) by lia; cbn [rbind]; rewrite ?(rget_at n) by lia; cbn [rbind]; rewrite ?app_nil_r; reflexivity.
Qed.
Definition row_of (t : option (table Z)) (i : nat) : option (list Z) := option_map (fun t => nth i (rows t) []) t.
Definition face_of (faces : list (list Z)) (uvs nms : option (table Z)) (i : nat) : list corner := written (nth i faces []) (row_of uvs i) (row_of nms i).
Lemma join_lines (g : nat -> text) n : forall a m, m = (a + n)%nat -> concat (map (fun i => g i ++ (if (i + 1 <? m)%nat then [nl] else [])) (seq a n)) = join nl (map g (seq a n)).
Proof.
  induction n as [|n IH]; intros a m ->; [reflexivity|]. cbn [seq map concat]. rewrite (IH (S a) (a + S n)%nat) by lia. destruct n as [|n].
  - cbn [seq map join]. replace (a + 1 <? a + 1)%nat with false by (symmetry; apply Nat.ltb_ge; lia). now rewrite !app_nil_r.
  - replace (a + 1 <? a + S (S n))%nat with true by (symmetry; apply Nat.ltb_lt; lia). cbn [seq map]. rewrite <- app_assoc. reflexivity.
Qed.
Lemma write_faces_ok faces uvs nms : Forall (fun f => length f = 3%nat) faces -> each (index_table (length faces)) uvs -> each (index_table (length faces)) nms ->
  write_faces faces uvs nms = Ok (join nl (map (fun i => str "f" ++ sp :: join sp (map show_corner (face_of faces uvs nms i))) (seq 0 (length faces)))).
Proof.
  intros Hf Hu Hn. unfold write_faces.
  assert (R : forall t i, each (index_table (length faces)) t -> (i < length faces)%nat -> row_at t i = Ok (row_of t i) /\ each (fun u => length u = 3%nat) (row_of t i)).
  { intros [t|] i Ht Hi; [|split; [reflexivity|exact I]]. cbn [each] in Ht. destruct Ht as [[_ H3] [Hl _]]. cbn [row_at row_of option_map each]. rewrite (nth_error_nth' (rows t) [] (n := i)) by lia. split; [reflexivity|]. rewrite Forall_forall in H3. apply H3, nth_In. lia. }
  rewrite (rmap_all _ (fun i => (str "f" ++ sp :: join sp (map show_corner (face_of faces uvs nms i))) ++ (if (i + 1 <? length faces)%nat then [nl] else []))).
  - cbn [rbind]. f_equal. now apply join_lines.
  - intros i Hi. apply in_seq in Hi. destruct (R uvs i Hu) as [E1 W1]; [lia|]. destruct (R nms i Hn) as [E2 W2]; [lia|]. unfold rget. rewrite (nth_error_nth' faces [] (n := i)) by lia. cbn [rbind]. rewrite E1. cbn [rbind]. rewrite E2. cbn [rbind].
    assert (L3 : length (nth i faces []) = 3%nat) by (rewrite Forall_forall in Hf; apply Hf, nth_In; lia). rewrite face_words_ok by auto. cbn [rbind]. f_equal.
Qed.
Lemma threes_ok {A} (l : list (list A)) : Forall (fun f => length f = 3%nat) l -> threes l = true.
Proof. intros H. unfold threes. apply forallb_forall. rewrite Forall_forall in H. intros x Hx. apply Nat.eqb_eq. auto. Qed.

(* ---- the lines ---- *)
Definition add_nl (l : text) : text := l ++ [nl].
Definition or_one {A} (a : A) (l : list A) : list A := match l with [] => [a] | _ => l end.
Lemma file_pre pre fl : concat (map add_nl pre) ++ join nl fl = file_of (pre ++ or_one [] fl).
Proof.
  unfold file_of. induction pre as [|l pre IH]; [cbn [map concat app]; now destruct fl|]. cbn [map concat app]. rewrite <- app_assoc, IH. unfold add_nl at 1. rewrite <- app_assoc. cbn [app].
  destruct (pre ++ _) eqn:E; [|reflexivity]. apply app_eq_nil in E as [_ E]. now destruct fl.
Qed.
Definition num_line (k : string) (d : nat) (v : list R) : text := str k ++ sp :: numbers d v.
Definition head_lines (stem : text) : list text := [[]; str "mtllib" ++ sp :: stem ++ str ".mtl"; str "usemtl" ++ sp :: str "mesh"; []].
Definition pre_lines (stem : text) (saved : bool) (d : nat) (verts normals uvs : list (list R)) : list text :=
  (if saved then head_lines stem else []) ++ map (num_line "v" d) verts ++ map (num_line "vn" d) normals ++ map (num_line "vt" d) uvs.
Definition pre_items (stem : text) (saved : bool) (d : nat) (verts normals uvs : list (list R)) : list item :=
  (if saved then [Other; Lib (stem ++ str ".mtl"); Use (str "mesh"); Other] else []) ++ map (fun v => Vertex (printed d v)) verts ++ map (fun v => Normal (printed d v)) normals ++ map (fun v => TexCoord (printed d v)) uvs.
Lemma f2_maps {A B C} (P : B -> C -> Prop) (f : A -> B) (g : A -> C) l : (forall a, In a l -> P (f a) (g a)) -> Forall2 P (map f l) (map g l).
Proof. induction l as [|a l IH]; intros H; constructor; [apply H; now left|apply IH; intros; apply H; now right]. Qed.
Lemma blank_says : says [] Other.
Proof. exists []. split; [apply spaced_end; constructor|exact I]. Qed.
Lemma pre_says stem saved d verts normals uvs : word stem -> Forall (fun v => length v = 3%nat) verts -> Forall (fun v => length v = 3%nat) normals -> Forall (fun v => length v = 2%nat) uvs ->
  Forall2 says (pre_lines stem saved d verts normals uvs) (pre_items stem saved d verts normals uvs) /\ Forall one_line (pre_lines stem saved d verts normals uvs).
Proof.
  intros Hs Hv Hn Hu. rewrite Forall_forall in Hv, Hn, Hu. assert (Hm : word (stem ++ str ".mtl")). { destruct Hs as [H0 H1]. split; [destruct stem; easy|]. apply Forall_app. split; auto. repeat constructor. }
  assert (K : forall k v, keyword_line k (map show_dec (printed d v) ++ []) (num_line k d v)). { intros k v. rewrite app_nil_r. unfold num_line. rewrite numbers_show. apply keyword_join, printed_words. }
  assert (L : forall k v, one_line (str k) -> one_line (num_line k d v)). { intros k v Hk. unfold num_line. rewrite numbers_show. apply keyword_one_line; auto. apply printed_words. }
  unfold pre_lines, pre_items. split.
  - repeat apply Forall2_app.
    + destruct saved; [|constructor]. repeat apply Forall2_cons; [apply blank_says| | |apply blank_says|constructor].
      * split; auto. apply (keyword_join "mtllib" [stem ++ str ".mtl"]). repeat constructor; apply Hm.
      * exists []. apply (keyword_join "usemtl" [str "mesh"]). repeat constructor. easy.
    + apply f2_maps. intros v Hi. split; [unfold printed; rewrite map_length; auto|]. split; [apply printed_readable|]. exists []. apply K.
    + apply f2_maps. intros v Hi. split; [unfold printed; rewrite map_length; auto|]. split; [apply printed_readable|]. exists []. apply K.
    + apply f2_maps. intros v Hi. split; [unfold printed; rewrite map_length; auto|]. split; [apply printed_readable|]. exists []. apply K.
  - rewrite !Forall_app. repeat split.
    + destruct saved; [|constructor]. unfold head_lines. assert (Lm : one_line (str "mtllib" ++ sp :: stem ++ str ".mtl")) by (apply (keyword_one_line "mtllib" [stem ++ str ".mtl"]); [repeat constructor|constructor; [exact Hm|constructor]]). assert (Lu : one_line (str "usemtl" ++ sp :: str "mesh")) by (repeat constructor). assert (L0 : one_line []) by constructor. auto.
    + apply Forall_map, Forall_forall. intros v _. apply L. repeat constructor.
    + apply Forall_map, Forall_forall. intros v _. apply L. repeat constructor.
    + apply Forall_map, Forall_forall. intros v _. apply L. repeat constructor.
Qed.
Definition table_rows (t : option (table R)) : list (list R) := match t with Some t => rows t | None => [] end.
Definition is_saved (uvs : option (table R)) (fuvs : option (table Z)) (tm : bool) : bool := has fuvs && has uvs && tm.
Definition all_lines stem verts faces d normals fn uvs fu tm : list text :=
  pre_lines stem (is_saved uvs fu tm) d verts (table_rows normals) (if is_saved uvs fu tm then table_rows uvs else []) ++
  or_one [] (map (fun i => str "f" ++ sp :: join sp (map show_corner (face_of faces (if is_saved uvs fu tm then fu else None) fn i))) (seq 0 (length faces))).
Definition all_items stem verts faces d normals fn uvs fu tm : list item :=
  pre_items stem (is_saved uvs fu tm) d verts (table_rows normals) (if is_saved uvs fu tm then table_rows uvs else []) ++
  or_one Other (map (fun i => Face (face_of faces (if is_saved uvs fu tm then fu else None) fn i)) (seq 0 (length faces))).
Lemma save_form stem verts faces dp normals fn uvs fu tm :
  Forall (fun v => length v = 3%nat) verts -> Forall (fun v => length v = 3%nat) faces -> has normals = has fn -> each (is_table 3) normals -> each (index_table (length faces)) fn -> each (is_table 2) uvs -> each (index_table (length faces)) fu ->
  verts <> [] \/ faces <> [] ->
  save_obj stem verts faces dp normals fn uvs fu tm = Ok (file_of (all_lines stem verts faces (match dp with Some d => d | None => 6%nat end) normals fn uvs fu tm)).
Proof.
  intros Hv Hf Hh Hn Hfn Hu Hfu Hne. unfold save_obj. rewrite !threes_ok by auto. rewrite Hh, Bool.eqb_reflx. cbn [negb].
  assert (W : forall (A : Type) w (t : option (table A)), each (is_table w) t -> wide w t = true) by (intros A w [t|] Ht; [destruct Ht as [Ht _]; cbn; now rewrite Ht, Nat.eqb_refl|reflexivity]).
  assert (W2 : forall t : option (table Z), each (index_table (length faces)) t -> wide 3 t = true) by (intros t Ht; apply W; destruct t; [apply Ht|exact I]).
  rewrite (W2 fn Hfn), (W _ _ _ Hn), (W2 fu Hfu), (W _ _ _ Hu). cbn [negb]. set (saved := has fu && has uvs && tm). set (d := match dp with Some d => d | None => 6%nat end).
  assert (E : forall X Y : result text, match verts with [] => match faces with [] => Y | _ :: _ => X end | _ :: _ => X end = X) by (intros X Y; destruct verts; [destruct faces; [now destruct Hne|reflexivity]|reflexivity]).
  rewrite E. clear E.
  rewrite write_faces_ok; auto; [|destruct saved; [auto|exact I]]. cbn [rbind]. f_equal. unfold all_lines. fold saved. rewrite <- file_pre. unfold is_saved. fold saved. rewrite !app_assoc. f_equal. unfold pre_lines. rewrite !map_app, !concat_app, !map_map, <- !app_assoc.
  assert (N : forall k rs, concat (map (fun v => add_nl (num_line k d v)) rs) = concat (map (fun v => (str k ++ [sp]) ++ numbers d v ++ [nl]) rs)). { intros k rs. f_equal. apply map_ext. intros v. unfold add_nl, num_line. now rewrite <- !app_assoc. }
  rewrite !N. f_equal; [unfold head_lines; destruct saved; [|reflexivity]; cbn; now rewrite <- !app_assoc|]. f_equal. f_equal; [now destruct normals|]. destruct saved; [|reflexivity]. now destruct uvs.
Qed.
Lemma all_says stem verts faces d normals fn uvs fu tm : word stem ->
  Forall (fun v => length v = 3%nat) verts -> each (is_table 3) normals -> each (is_table 2) uvs ->
  Forall2 says (all_lines stem verts faces d normals fn uvs fu tm) (all_items stem verts faces d normals fn uvs fu tm) /\ Forall one_line (all_lines stem verts faces d normals fn uvs fu tm).
Proof.
  intros Hs Hv Hn Hu. unfold all_lines, all_items. set (saved := is_saved uvs fu tm).
  destruct (pre_says stem saved d verts (table_rows normals) (if saved then table_rows uvs else [])) as [P1 P2]; auto.
  { destruct normals as [t|]; [apply Hn|constructor]. } { destruct saved; [|constructor]. destruct uvs as [t|]; [apply Hu|constructor]. }
  set (fs := face_of faces _ fn). split; [apply Forall2_app; auto|apply Forall_app; split; auto].
  - destruct (seq 0 (length faces)) as [|i l]; [repeat constructor; apply blank_says|]. cbn [map or_one]. constructor.
    + split; [discriminate|]. apply (keyword_join "f"). apply Forall_map, Forall_forall. intros c _. apply corner_word.
    + apply f2_maps. intros j _. split; [discriminate|]. apply (keyword_join "f"). apply Forall_map, Forall_forall. intros c _. apply corner_word.
  - assert (L : forall i, one_line (str "f" ++ sp :: join sp (map show_corner (fs i)))). { intros i. apply keyword_one_line; [repeat constructor|]. apply Forall_map, Forall_forall. intros c _. apply corner_word. }
    destruct (seq 0 (length faces)) as [|i l]; [repeat constructor|]. cbn [map or_one]. constructor; [apply L|]. apply Forall_map, Forall_forall. intros j _. apply L.
Qed.
