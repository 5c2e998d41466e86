(* Reading back what save_obj wrote. *)
From Coq Require Import Ascii String ZArith NArith Reals Bool List Lia.
From Verif Require Import Base RBase Text TextSpec TextProofs Ply PlySpec PlyProofs PlyProofs5 Obj ObjSpec ObjProofs ObjProofs2 ObjProofs3 ObjProofs4.
Import ListNotations.
Local Open Scope list_scope.
Local Open Scope Z_scope.

Lemma fm_nil {A B C} (f : B -> list C) (g : A -> B) l : (forall a, f (g a) = []) -> flat_map f (map g l) = [].
Proof. intros H. induction l; cbn; [reflexivity|]. now rewrite H. Qed.
Lemma fm_one {A B C} (f : B -> list C) (g : A -> B) (h : A -> C) l : (forall a, f (g a) = [h a]) -> flat_map f (map g l) = map h l.
Proof. intros H. induction l; cbn; [reflexivity|]. rewrite H. cbn. now f_equal. Qed.
Lemma fm_or {B C} (f : B -> list C) a l : f a = [] -> flat_map f (or_one a l) = flat_map f l.
Proof. intros H. destruct l; [cbn; now rewrite H|reflexivity]. Qed.
Section items.
Variables (stem : text) (verts : list (list R)) (faces : list (list Z)) (d : nat) (normals : option (table R)) (fn : option (table Z)) (uvs : option (table R)) (fu : option (table Z)) (tm : bool).
Let saved := is_saved uvs fu tm.
Let is := all_items stem verts faces d normals fn uvs fu tm.
Let kept := if saved then fu else None.
Ltac solve_items := unfold is, all_items, pre_items, verts_of, normals_of, uvs_of, faces_of, uses, libs; rewrite !flat_map_app, fm_or by reflexivity;
  rewrite ?(fm_nil _ (fun v => Vertex (printed d v))), ?(fm_nil _ (fun v => Normal (printed d v))), ?(fm_nil _ (fun v => TexCoord (printed d v))), ?(fm_nil _ (fun i => Face (face_of faces _ fn i))) by reflexivity;
  fold saved.
Lemma verts_items : verts_of is = map (printed d) verts.
Proof. solve_items. rewrite (fm_one _ (fun v => Vertex (printed d v)) (printed d)) by reflexivity. destruct saved; cbn; rewrite ?app_nil_r; reflexivity. Qed.
Lemma normals_items : normals_of is = map (printed d) (table_rows normals).
Proof. solve_items. rewrite (fm_one _ (fun v => Normal (printed d v)) (printed d)) by reflexivity. destruct saved; cbn; rewrite ?app_nil_r; reflexivity. Qed.
Lemma uvs_items : uvs_of is = map (printed d) (if saved then table_rows uvs else []).
Proof. solve_items. rewrite (fm_one _ (fun v => TexCoord (printed d v)) (printed d)) by reflexivity. destruct saved; cbn; rewrite ?app_nil_r; reflexivity. Qed.
Lemma faces_items : faces_of is = map (face_of faces kept fn) (seq 0 (length faces)).
Proof. solve_items. rewrite (fm_one _ _ (face_of faces kept fn)) by reflexivity. destruct saved; reflexivity. Qed.
Lemma uses_items : uses is = if saved then [str "mesh"] else [].
Proof. solve_items. destruct saved; reflexivity. Qed.
Lemma libs_items : libs is = if saved then [stem ++ str ".mtl"] else [].
Proof. solve_items. destruct saved; reflexivity. Qed.
Lemma materials_app cur a b : materials_from cur (a ++ b) = materials_from cur a ++ materials_from (last_use cur a) b.
Proof. revert cur. induction a as [|i a IH]; intros cur; [reflexivity|]. destruct i; cbn [app materials_from last_use]; try apply IH. rewrite IH. apply app_assoc. Qed.
Lemma materials_none {A} (f : A -> item) l cur : (forall a, match f a with Face _ | Use _ => False | _ => True end) -> materials_from cur (map f l) = [] /\ last_use cur (map f l) = cur.
Proof. intros H. induction l as [|a l [IH1 IH2]]; [split; reflexivity|]. cbn [map materials_from last_use]. specialize (H a). destruct (f a); auto; easy. Qed.
Lemma materials_items : materials_from None is = map (fun _ => if saved then Some (str "mesh") else None) (flat_map fan (faces_of is)).
Proof.
  rewrite faces_items. unfold is, all_items, pre_items. fold saved kept. rewrite !materials_app.
  destruct (materials_none (fun v => Vertex (printed d v)) verts (if saved then Some (str "mesh") else None) (fun _ => I)) as [V1 V2].
  destruct (materials_none (fun v => Normal (printed d v)) (table_rows normals) (if saved then Some (str "mesh") else None) (fun _ => I)) as [N1 N2].
  destruct (materials_none (fun v => TexCoord (printed d v)) (if saved then table_rows uvs else []) (if saved then Some (str "mesh") else None) (fun _ => I)) as [U1 U2].
  assert (H0 : materials_from None (if saved then [Other; Lib (stem ++ str ".mtl"); Use (str "mesh"); Other] else []) = [] /\ last_use None (if saved then [Other; Lib (stem ++ str ".mtl"); Use (str "mesh"); Other] else []) = if saved then Some (str "mesh") else None) by (destruct saved; split; reflexivity).
  destruct H0 as [H1 H2]. rewrite H1, H2, V1, V2, N1, N2, U1. cbn [app].
  assert (L : forall (a b : list item) cur, last_use cur (a ++ b) = last_use (last_use cur a) b). { induction a as [|i a IH]; intros b cur; [reflexivity|]. destruct i; cbn [app last_use]; apply IH. }
  rewrite !L, H2, V2, N2, U2. generalize (if saved then Some (str "mesh") else None). intros cur. destruct (seq 0 (length faces)) as [|i l]; [reflexivity|]. cbn [map or_one]. change (Face (face_of faces kept fn i) :: map (fun i => Face (face_of faces kept fn i)) l) with (map (fun i => Face (face_of faces kept fn i)) (i :: l)).
  change (face_of faces kept fn i :: map (face_of faces kept fn) l) with (map (face_of faces kept fn) (i :: l)). generalize (i :: l). clear. induction l as [|i l IH]; [reflexivity|]. cbn [map materials_from flat_map]. now rewrite IH, map_app.
Qed.
End items.

Lemma position_after n i : 0 <= i -> position n (i + 1) = i.
Proof. intros H. unfold position. destruct (Z.ltb_spec (i + 1) 0); lia. Qed.
Lemma fan_written f u n : fan (written f u n) = [written f u n].
Proof. reflexivity. Qed.
Lemma faces_seq (g : nat -> list corner) l : (forall i, fan (g i) = [g i]) -> flat_map fan (map g l) = map g l.
Proof. intros H. induction l as [|i l IH]; [reflexivity|]. cbn [map flat_map]. rewrite H, IH. reflexivity. Qed.
Lemma three_nth (r : list Z) : length r = 3%nat -> map (nat_at r) [0; 1; 2]%nat = r.
Proof. destruct r as [|a [|b [|c [|]]]]; easy. Qed.
Lemma seq_nth' {A} (l : list A) e n : length l = n -> map (fun i => nth i l e) (seq 0 n) = l.
Proof. intros <-. apply nth_ext with (d := e) (d' := e); [now rewrite map_length, seq_length|]. intros i Hi. rewrite map_length, seq_length in Hi. rewrite (nth_indep _ e (nth 0 l e)) by (now rewrite map_length, seq_length). rewrite (map_nth (fun i => nth i l e)). now rewrite seq_nth. Qed.
Lemma nth_forall {A} (P : A -> Prop) l i e : Forall P l -> (i < length l)%nat -> P (nth i l e).
Proof. intros H Hi. rewrite Forall_forall in H. apply H, nth_In, Hi. Qed.
Lemma round_trip materials stem verts faces dp normals fn uvs fu tm :
  word stem -> verts <> [] \/ faces <> [] ->
  Forall (fun v => length v = 3%nat) verts -> Forall (fun f => length f = 3%nat) faces -> Forall (Forall (fun i => 0 <= i)) faces ->
  has normals = has fn -> each (is_table 3) normals -> each (index_table (length faces)) fn -> each (is_table 2) uvs -> each (index_table (length faces)) fu ->
  let d := match dp with Some d => d | None => 6%nat end in let saved := has fu && has uvs && tm in
  exists file o, save_obj stem verts faces dp normals fn uvs fu tm = Ok file /\ load_obj materials file = Ok o /\
    o_faces o = faces /\ Forall2 (Forall2 (rounds_to d)) verts (o_verts o) /\
    Forall2 (Forall2 (rounds_to d)) (match normals with Some t => rows t | None => [] end) (rows_of (o_normals o)) /\
    o_normals_idx o = match fn with Some t => rows t | None => map (fun _ => [-1; -1; -1]) faces end /\
    Forall2 (Forall2 (rounds_to d)) (match uvs with Some t => if saved then rows t else [] | None => [] end) (rows_of (o_uvs o)) /\
    o_textures_idx o = match fu with Some t => if saved then rows t else map (fun _ => [-1; -1; -1]) faces | None => map (fun _ => [-1; -1; -1]) faces end /\
    o_mtl o = (if saved then Some (stem ++ str ".mtl") else None) /\ o_names o = (if saved then [str "mesh"] else []) /\ o_materials_idx o = map (fun _ => if saved then 0 else -1) faces.
Proof.
  intros Hs Hne Hv Hf Hf0 Hh Hn Hfn Hu Hfu d saved. exists (file_of (all_lines stem verts faces d normals fn uvs fu tm)).
  destruct (all_says stem verts faces d normals fn uvs fu tm Hs Hv Hn Hu) as [S1 S2]. set (is := all_items stem verts faces d normals fn uvs fu tm) in *. set (kept := if saved then fu else None).
  assert (Hk : each (index_table (length faces)) kept) by (unfold kept; destruct saved; [auto|exact I]).
  assert (Ef : faces_of is = map (face_of faces kept fn) (seq 0 (length faces))) by apply faces_items.
  assert (TB : forall t i j, each (index_table (length faces)) t -> (i < length faces)%nat -> (j < 3)%nat -> each (fun u => 0 <= nat_at u j) (row_of t i)).
  { intros [t|] i j Ht Hi Hj; [|exact I]. destruct Ht as ((_ & H3) & Hl & H0). cbn. unfold nat_at. rewrite <- Hl in Hi. pose proof (nth_forall _ _ i [] H3 Hi) as L3. pose proof (nth_forall _ _ i [] H0 Hi) as L0. cbv beta in L3. apply (nth_forall _ _ j 0 L0). lia. }
  assert (FB : forall i j, (i < length faces)%nat -> (j < 3)%nat -> 0 <= nat_at (nth i faces []) j).
  { intros i j Hi Hj. pose proof (nth_forall _ _ i [] Hf Hi) as L3. pose proof (nth_forall _ _ i [] Hf0 Hi) as L0. cbv beta in L3. apply (nth_forall _ _ j 0 L0). lia. }
  assert (GF : Forall good_face (faces_of is)).
  { rewrite Ef. apply Forall_map, Forall_forall. intros i Hi. apply in_seq in Hi. unfold face_of. set (w := written _ _ _).
    assert (Wc : forall c, In c w -> exists j, (j < 3)%nat /\ c = C (nat_at (nth i faces []) j + 1) (option_map (fun u => nat_at u j + 1) (row_of kept i)) (option_map (fun u => nat_at u j + 1) (row_of fn i))).
    { intros c Hc. unfold w, written in Hc. apply in_map_iff in Hc as (j & <- & Hj). exists j. split; [cbn in Hj; intuition lia|reflexivity]. }
    assert (NZ : forall c, In c w -> c_vert c <> 0 /\ c_tex c <> Some 0 /\ c_norm c <> Some 0 /\ c_tex c <> Some (-1) /\ c_norm c <> Some (-1)).
    { intros c Hc. apply Wc in Hc as (j & Hj & ->). pose proof (FB i j ltac:(lia) Hj). pose proof (TB kept i j Hk ltac:(lia) Hj). pose proof (TB fn i j Hfn ltac:(lia) Hj). cbn [c_vert c_tex c_norm].
      destruct (row_of kept i), (row_of fn i); cbn in *; repeat split; try discriminate; try (intros E; injection E as E); lia. }
    assert (U : forall p, (forall c, In c w -> p c = (option_map (fun u => nat_at u 0 + 1) (row_of kept i)) \/ True) -> True) by auto. clear U.
    split; [|split; [|split]].
    - destruct (row_of kept i) eqn:E; [left|right]; intros c Hc; apply Wc in Hc as (j & Hj & ->); cbn; easy.
    - destruct (row_of fn i) eqn:E; [left|right]; intros c Hc; apply Wc in Hc as (j & Hj & ->); cbn; easy.
    - intros c Hc. apply NZ in Hc. tauto.
    - intros tri Ht. unfold w in Ht. rewrite fan_written in Ht. destruct Ht as [<-|[]]. fold w. assert (I0 : In (hd (C 0 None None) w) w) by (left; reflexivity). split; exists (hd (C 0 None None) w); (split; [exact I0|]); apply NZ in I0; tauto. }
  assert (GU : Forall (fun cs => uniform c_tex cs /\ uniform c_norm cs) (faces_of is)) by (eapply Forall_impl; [|exact GF]; intros cs (? & ? & _); auto).
  destruct (reads materials _ is S1 S2 GF) as (o & Eo & R1 & R2 & R3 & R4 & R5 & R6 & R7). exists o. split; [apply save_form; auto|]. split; [exact Eo|].
  destruct (draws materials _ is o S1 S2 GU Eo) as [D _].
  assert (Etri : flat_map fan (faces_of is) = map (face_of faces kept fn) (seq 0 (length faces))). { rewrite Ef. apply faces_seq. intros i. apply fan_written. }
  rewrite Etri in R4, R5, R6. rewrite map_map in R4, R5, R6.
  assert (VI : verts_of is = map (printed d) verts) by apply verts_items. assert (NI : normals_of is = map (printed d) (table_rows normals)) by apply normals_items. assert (UI : uvs_of is = map (printed d) (if saved then table_rows uvs else [])) by apply uvs_items.
  assert (RD : forall l, Forall2 (Forall2 (rounds_to d)) l (map (printed d) l)). { clear. induction l; cbn; constructor; auto. apply printed_rounds. }
  assert (GV : forall l, rows_of (given l) = l) by (intros [|]; reflexivity).
  assert (POS : forall (t : option (table Z)) n (p : corner -> option Z), each (index_table (length faces)) t -> (forall i j, p (C (nat_at (nth i faces []) j + 1) (option_map (fun u => nat_at u j + 1) (row_of kept i)) (option_map (fun u => nat_at u j + 1) (row_of fn i))) = option_map (fun u => nat_at u j + 1) (row_of t i)) ->
     map (fun i => positions n p (face_of faces kept fn i)) (seq 0 (length faces)) = match t with Some t => rows t | None => map (fun _ => [-1; -1; -1]) faces end).
  { intros t n p Ht Hp. destruct t as [t|].
    - destruct Ht as ((Hw & H3) & Hl & H0). rewrite <- (seq_nth' (rows t) [] (length faces)) by auto. apply map_ext_in. intros i Hi. apply in_seq in Hi. rewrite <- (three_nth (nth i (rows t) [])) by (apply (nth_forall _ _ i [] H3); lia). unfold positions, face_of, written. rewrite map_map. apply map_ext_in. intros j Hj. rewrite Hp. cbn [row_of option_map]. apply position_after.
      assert (Ht : each (index_table (length faces)) (Some t)) by (repeat split; auto). apply (TB (Some t) i j Ht); [lia|cbn in Hj; intuition lia].
    - transitivity (map (fun _ : nat => [-1; -1; -1]) (seq 0 (length faces))).
      + apply map_ext. intros i. unfold positions, face_of, written. cbn [map]. rewrite !Hp. reflexivity.
      + clear. generalize 0%nat. induction faces as [|f l IH]; intros a; [reflexivity|]. cbn. now rewrite IH. }
  split.
  { rewrite R4. transitivity (map (fun i => nth i faces []) (seq 0 (length faces))); [|now apply seq_nth']. apply map_ext_in. intros i Hi. apply in_seq in Hi. transitivity (map (nat_at (nth i faces [])) [0; 1; 2]%nat); [|apply three_nth; apply (nth_forall _ _ i [] Hf); lia]. unfold face_of, written. rewrite map_map. apply map_ext_in. intros j Hj. cbn [c_vert]. apply position_after. apply FB; [lia|cbn in Hj; intuition lia]. }
  split; [rewrite R1, VI; apply RD|]. split; [rewrite R3, GV, NI; apply RD|]. split; [rewrite R6; apply POS; auto|]. split.
  { rewrite R2, GV, UI. replace (match uvs with Some t => if saved then rows t else [] | None => [] end) with (if saved then table_rows uvs else []) by (destruct uvs, saved; reflexivity). apply RD. }
  split.
  { rewrite R5. rewrite (POS kept); auto. unfold kept. destruct fu, saved; reflexivity. }
  assert (LB : libs is = if saved then [stem ++ str ".mtl"] else []) by apply libs_items. assert (US : uses is = if saved then [str "mesh"] else []) by apply uses_items.
  split; [rewrite R7; unfold last_lib; rewrite LB; now destruct saved|].
  assert (MI : materials_from None is = map (fun _ => if saved then Some (str "mesh") else None) (flat_map fan (faces_of is))) by apply materials_items.
  destruct D as (D1 & D2 & D3). { destruct saved; [left; rewrite US; discriminate|right]. intros f m ms Hl. unfold last_lib in Hl. rewrite LB in Hl. discriminate. }
  assert (NM : o_names o = if saved then [str "mesh"] else []).
  { rewrite US in D2. destruct saved.
    - destruct (o_names o) as [|a [|b l]] eqn:E; [exfalso; now apply (D2 (str "mesh")), or_introl| |].
      + assert (In a [str "mesh"]) by (apply D2; now left). destruct H as [<-|[]]. reflexivity.
      + assert (In a [str "mesh"]) by (apply D2; now left). assert (In b [str "mesh"]) by (apply D2; right; now left). destruct H as [<-|[]], H0 as [<-|[]]. inversion D1 as [|? ? C]. exfalso. apply C. now left.
    - destruct (o_names o) as [|a l]; [reflexivity|]. exfalso. now apply (D2 a), or_introl. }
  split; [exact NM|]. rewrite MI, Etri, NM in D3. rewrite map_map in D3. transitivity (map (fun _ : nat => if saved then 0 else -1) (seq 0 (length faces))).
  - clear -D3. revert D3. generalize (o_materials_idx o). generalize (seq 0 (length faces)). induction l as [|i l IH]; intros m F; inversion F as [|? y ? m' H2 F']; subst; [reflexivity|]. cbn [map]. rewrite (IH m') by auto. f_equal. destruct saved; cbn in H2; [|auto]. destruct H2 as [A B]. destruct (Z.to_nat y) as [|[|k]] eqn:E; [lia|easy|easy].
  - clear. generalize 0%nat. induction faces as [|f l IH]; intros a; [reflexivity|]. cbn. now rewrite IH.
Qed.
