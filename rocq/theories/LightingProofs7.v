(* Bounds, extremes, rigid motions, and cases where the claims fail. *)
From Coq Require Import Lra.
From Verif Require Import Base RBase Geom LinAlg Tens Lighting LightingSpec LightingProofs LightingProofs2 LightingProofs3 LightingProofs4 LightingProofs5 LightingProofs6.
Local Open Scope R_scope.

Lemma diffuse_law normals color dir n ds N col L : (0 < n)%nat ->
  vecs normals n ds N -> prop3 color n col -> direction_of dir n ds L ->
  exists t, diffuse normals color dir = Ok t /\ shp t = n :: ds ++ [3%nat] /\
    forall i js, (i < n)%nat -> inside js ds -> sized (N i js) -> sized (L i js) ->
      row t (i :: js) = scal3 (lambert (N i js) (L i js)) (col i).
Proof.
  intros Hn VN PC DL. destruct (diffuse_eval _ _ _ _ _ _ _ _ Hn VN PC DL) as (t & E & S & H). exists t. split; [exact E|]. split; [exact S|].
  intros i js Hi J SN SL. rewrite (H i js Hi J), lit_lambert by assumption. reflexivity.
Qed.
Lemma specular_law points normals dir color cam shin n ds P N L col C s : (0 < n)%nat ->
  vecs points n ds P -> vecs normals n ds N -> direction_of dir n ds L -> prop3 color n col ->
  prop3 cam n C -> prop1 shin n s ->
  exists t, specular points normals dir color cam shin = Ok t /\ shp t = n :: ds ++ [3%nat] /\
    forall i js, (i < n)%nat -> inside js ds ->
      sized (N i js) -> sized (L i js) -> sized (sub3 (C i) (P i js)) -> 0 < s i ->
      row t (i :: js) = scal3 (gloss (N i js) (L i js) (sub3 (C i) (P i js)) (s i)) (col i).
Proof.
  intros Hn VP VN DL PC PX PS. destruct (specular_eval _ _ _ _ _ _ _ _ _ _ _ _ _ _ Hn VP VN DL PC PX PS) as (t & E & S & H). exists t. split; [exact E|]. split; [exact S|].
  intros i js Hi J SN SL SV Hs. rewrite (H i js Hi J), shine_gloss by assumption. reflexivity.
Qed.
Lemma scal_within x c : 0 <= x <= 1 -> colour c -> within (scal3 x c) c.
Proof. intros H (A & B & C). unfold within, scal3. cbn. repeat split; try (apply Rmult_le_pos; lra); nra. Qed.
Lemma scal_one c : scal3 1 c = c.
Proof. destruct c. unfold scal3. cbn. f_equal; ring. Qed.
Lemma scal_null c : scal3 0 c = vzero.
Proof. unfold scal3, vzero. f_equal; ring. Qed.
Lemma scal_fix x c : c <> vzero -> scal3 x c = c -> x = 1.
Proof.
  intros N E. destruct c as [a b d]. unfold scal3 in E. cbn in E. injection E as A B D.
  destruct (Req_dec x 1) as [X|X]; [exact X|]. exfalso. apply N. unfold vzero. f_equal.
  - assert ((x - 1) * a = 0) as Z by lra. apply Rmult_integral in Z. lra.
  - assert ((x - 1) * b = 0) as Z by lra. apply Rmult_integral in Z. lra.
  - assert ((x - 1) * d = 0) as Z by lra. apply Rmult_integral in Z. lra.
Qed.
Lemma lambert_facts n l c : colour c ->
  within (scal3 (lambert n l) c) c /\ (dot3 n l <= 0 -> scal3 (lambert n l) c = vzero) /\
  (n <> vzero -> l <> vzero -> c <> vzero -> (scal3 (lambert n l) c = c <-> exists k, 0 < k /\ l = scal3 k n)).
Proof.
  intros HC. split; [apply scal_within; [apply lambert_range|exact HC]|]. split.
  - intros H. rewrite lambert_away by exact H. apply scal_null.
  - intros Hn Hl Hc. rewrite <- lambert_full by assumption. split; [apply scal_fix, Hc|]. intros ->. apply scal_one.
Qed.
Lemma gloss_facts n l v s c : colour c -> 0 < s ->
  within (scal3 (gloss n l v s) c) c /\ (dot3 n l <= 0 -> scal3 (gloss n l v s) c = vzero) /\
  (n <> vzero -> l <> vzero -> v <> vzero -> c <> vzero -> 0 < dot3 n l ->
   (scal3 (gloss n l v s) c = c <-> exists k, 0 < k /\ v = scal3 k (mirror n l))).
Proof.
  intros HC Hs. split; [apply scal_within; [apply gloss_range, Hs|exact HC]|]. split.
  - intros H. rewrite gloss_away by exact H. apply scal_null.
  - intros Hn Hl Hv Hc D. rewrite <- (gloss_peak n l v s) by assumption. split; [apply scal_fix, Hc|]. intros ->. apply scal_one.
Qed.
Lemma moved_sub q o a b : sub3 (moved q o a) (moved q o b) = vmul3 (sub3 a b) q.
Proof. destruct a, b, o, q. unfold sub3, moved, add3, vmul3. cbn. f_equal; ring. Qed.
Lemma rigid_eval q o l l' n la ld ls tw tw' normals normals' points points' cam cam' shin ds N P C s :
  rigid q -> (0 < n)%nat -> three ds -> lamp l n la ld ls tw -> lamp l' n la ld ls tw' ->
  (forall i p, tw' i (moved q o p) = vmul3 (tw i p) q) ->
  vecs normals n ds N -> vecs normals' n ds (fun i js => vmul3 (N i js) q) ->
  vecs points n ds P -> vecs points' n ds (fun i js => moved q o (P i js)) ->
  prop3 cam n C -> prop3 cam' n (fun i => moved q o (C i)) -> prop1 shin n s ->
  exists d d' sp sp',
    light_diffuse l normals points = Ok d /\ light_diffuse l' normals' points' = Ok d' /\
    light_specular l normals points cam shin = Ok sp /\ light_specular l' normals' points' cam' shin = Ok sp' /\
    forall i js, (i < n)%nat -> inside js ds -> row d' (i :: js) = row d (i :: js) /\ row sp' (i :: js) = row sp (i :: js).
Proof.
  intros HQ Hn TD HL HL' HT VN VN' VP VP' PC PC' PS.
  destruct (light_diffuse_eval l n la ld ls tw normals points ds N P Hn HL TD VN VP) as (d & E1 & _ & V1).
  destruct (light_diffuse_eval l' n la ld ls tw' normals' points' ds _ _ Hn HL' TD VN' VP') as (d' & E2 & _ & V2).
  destruct (light_specular_eval l n la ld ls tw normals points cam shin ds N P C s Hn HL TD VN VP PC PS) as (sp & E3 & _ & V3).
  destruct (light_specular_eval l' n la ld ls tw' normals' points' cam' shin ds _ _ _ s Hn HL' TD VN' VP' PC' PS) as (sp' & E4 & _ & V4).
  exists d, d', sp, sp'. do 4 (split; [assumption|]). intros i js Hi J.
  rewrite (V1 i js Hi J), (V2 i js Hi J), (V3 i js Hi J), (V4 i js Hi J). cbn beta.
  rewrite HT, moved_sub, lit_turn, shine_turn by exact HQ. split; reflexivity.
Qed.

(* packed tensors *)
Lemma packed_vecs l : vecs (packed l) (length l) [] (fun i _ => nth i l vzero).
Proof.
  split; [reflexivity|]. intros i js Hi J. inversion J; subst. unfold row, packed. cbn [get app]. destruct (nth i l vzero). reflexivity.
Qed.
Lemma packed_prop l : prop3 (packed l) (length l) (fun i => nth i l vzero).
Proof. left. apply (proj1 (vecs_prop _ _ (fun i => nth i l vzero))). apply packed_vecs. Qed.
Lemma packed_shared v n : prop3 (packed [v]) n (fun _ => v).
Proof. right. split; [reflexivity|]. intros i Hi. unfold row, packed. cbn. destruct v. reflexivity. Qed.
Lemma filled_vecs n h w k v : vecs (filled n h w k v) n [h; w; k] (fun _ _ => v).
Proof.
  split; [reflexivity|]. intros i js Hi J. pose proof (inside_length _ _ J) as L. destruct js as [|a [|b [|c [|? ?]]]]; try discriminate.
  unfold row, filled. cbn. destruct v. reflexivity.
Qed.
Lemma one_shininess s n : prop1 (T [1%nat] (fun _ => s)) n (fun _ => s).
Proof. right. split; [reflexivity|]. intros. reflexivity. Qed.
Lemma shared_eval ma md ms s : shared_material (Mat (packed [ma]) (packed [md]) (packed [ms]) (T [1%nat] (fun _ => s))) ma md ms s.
Proof. unfold shared_material. cbn. destruct ma, md, ms. repeat split. Qed.

(* an exponent of zero: a point turned away from the light shines *)
Lemma dark_fails : ~ (forall points normals dir color cam shin n ds P N L col C s t i js, (0 < n)%nat ->
  vecs points n ds P -> vecs normals n ds N -> direction_of dir n ds L -> prop3 color n col ->
  prop3 cam n C -> prop1 shin n s -> specular points normals dir color cam shin = Ok t ->
  (i < n)%nat -> inside js ds -> sized (N i js) -> sized (L i js) -> sized (sub3 (C i) (P i js)) -> 0 <= s i ->
  dot3 (N i js) (L i js) < 0 -> row t (i :: js) = vzero).
Proof.
  intros H. set (up := V3 0 0 1). set (down := V3 0 0 (-1)). set (white := V3 1 1 1).
  assert (Nu : norm3 up = 1) by (apply nuniq; [lra|unfold dot3, up; cbn; ring]).
  assert (Nd : norm3 down = 1) by (apply nuniq; [lra|unfold dot3, down; cbn; ring]).
  destruct (specular_eval (packed [vzero]) (packed [up]) (packed [down]) (packed [white]) (packed [up]) (T [1%nat] (fun _ => 0))
    1 [] (fun i _ => nth i [vzero] vzero) (fun i _ => nth i [up] vzero) (fun _ _ => down) (fun _ => white) (fun _ => up) (fun _ => 0)) as (t & E & S & R);
    [lia|apply (packed_vecs [vzero])|apply (packed_vecs [up])|apply (prop3_direction _ _ _ (fun _ => down)), packed_shared|apply packed_shared|apply packed_shared|apply one_shininess|].
  assert (SU : sized up) by (left; rewrite Nu; lra). assert (SD : sized down) by (left; rewrite Nd; lra).
  pose proof (H _ _ _ _ _ _ 1%nat [] _ _ _ _ _ _ t 0%nat [] ltac:(lia) (packed_vecs [vzero]) (packed_vecs [up])
    (prop3_direction (packed [down]) 1 [] (fun _ => down) (packed_shared down 1)) (packed_shared white 1) (packed_shared up 1) (one_shininess 0 1) E ltac:(lia) (Forall2_nil _)) as Q.
  cbn [nth length] in Q. assert (SV : sized (sub3 up vzero)). { replace (sub3 up vzero) with up; [exact SU|]. unfold sub3, up, vzero. cbn. f_equal; ring. }
  specialize (Q SU SD SV ltac:(lra)). specialize (Q ltac:(unfold dot3, up, down; cbn; lra)).
  rewrite (R 0%nat []) in Q by (try lia; constructor). cbn [nth] in Q.
  assert (SH : shine up down (sub3 up vzero) 0 = 1).
  { unfold shine. cbv zeta. unfold tpow. destruct (Reqb_spec 0 0); [|contradiction].
    match goal with |- (if Reqb ?a 0 then _ else _) = _ => replace a with 0 end.
    - destruct (Reqb_spec 0 0); [reflexivity|contradiction].
    - destruct (Rltb_spec 0 (dot3 (unit6 up) (unit6 down))) as [G|G]; [|ring]. exfalso.
      rewrite !unit6_long, Nu, Nd in G by lra. unfold dot3, div3, up, down in G. cbn in G. lra. }
  rewrite SH, scal_one in Q. unfold white, vzero in Q. injection Q. lra.
Qed.

(* materials given per mesh *)
Definition tri : list (nat * nat * nat) := [(0, 1, 2)%nat].
Definition tri_verts : tensor := packed [V3 0 0 0; V3 1 0 0; V3 0 1 0].
Definition tri_normals : tensor := packed [V3 0 0 1; V3 0 0 1; V3 0 0 1].
Definition two_materials : materials :=
  Mat (packed [V3 1 1 1; V3 1 1 1]) (packed [V3 1 0 0; V3 0 1 0]) (packed [V3 1 1 1; V3 1 1 1]) (T [2%nat] (fun _ => 64)).
Lemma two_materials_ok : make_materials (packed [V3 1 1 1]) (packed [V3 1 0 0; V3 0 1 0]) (packed [V3 1 1 1]) (T [1%nat] (fun _ => 64)) <> Fail EValue.
Proof. discriminate. Qed.
Definition glow : lights := Ambient (packed [V3 1 1 1]).
Definition phong_shape (h w k : nat) : result (list nat) :=
  rbind (phong_shading tri_verts tri_normals tri (IT [2%nat; h; w; k] (fun _ => 0%Z)) (filled 2 h w k (V3 1 0 0)) glow
       (packed [V3 0 0 3]) two_materials (filled 2 h w k (V3 1 1 1))) (fun t => Ok (shp t)).
Lemma phong_shape_1 : phong_shape 1 1 1 = Ok [2; 1; 1; 2; 3]%nat.
Proof. reflexivity. Qed.
Lemma phong_shape_3 : phong_shape 1 1 3 = Fail ERuntime.
Proof. reflexivity. Qed.
Lemma two_material : material two_materials 2 (fun _ => V3 1 1 1) (fun i => nth i [V3 1 0 0; V3 0 1 0] vzero) (fun _ => V3 1 1 1) (fun _ => 64).
Proof.
  split; [|split; [|split]].
  - left. split; [reflexivity|]. intros [|[|i]] Hi; try lia; reflexivity.
  - apply (packed_prop [V3 1 0 0; V3 0 1 0]).
  - left. split; [reflexivity|]. intros [|[|i]] Hi; try lia; reflexivity.
  - left. split; [reflexivity|]. intros. reflexivity.
Qed.
Lemma tri_ok : faces_ok 3 tri.
Proof. intros u v w [E|[]]. injection E as <- <- <-. lia. Qed.
Lemma all_rendered n h w k : rendered (IT [n; h; w; k] (fun _ => 0%Z)) n h w k tri.
Proof. split; [reflexivity|]. split; [discriminate|]. intros. cbn. lia. Qed.
Lemma glow_lamp n : lamp glow n (fun _ => V3 1 1 1) (fun _ => vzero) (fun _ => vzero) (fun _ p => p).
Proof. split; [apply packed_shared|]. split; reflexivity. Qed.
Lemma phong_materials_fail : ~ (forall verts vn nv A VN faces p2f bary B l n la ld ls tw cam C m ma md ms s x X h w k,
  (0 < n)%nat -> vecs verts nv [] (fun v _ => A v) -> vecs vn nv [] (fun v _ => VN v) -> faces_ok nv faces ->
  rendered p2f n h w k faces -> vecs bary n [h; w; k] B ->
  lamp l n la ld ls tw -> prop3 cam n C -> material m n ma md ms s -> vecs x n [h; w; k] X ->
  exists out, phong_shading verts vn faces p2f bary l cam m x = Ok out /\ shp out = [n; h; w; k; 3%nat]).
Proof.
  intros H. destruct (H tri_verts tri_normals 3%nat (fun i => nth i [V3 0 0 0; V3 1 0 0; V3 0 1 0] vzero) (fun i => nth i [V3 0 0 1; V3 0 0 1; V3 0 0 1] vzero)
    tri (IT [2; 1; 1; 1]%nat (fun _ => 0%Z)) (filled 2 1 1 1 (V3 1 0 0)) _ glow 2%nat _ _ _ _ (packed [V3 0 0 3]) _ two_materials _ _ _ _ (filled 2 1 1 1 (V3 1 1 1)) _ 1%nat 1%nat 1%nat
    ltac:(lia) (packed_vecs _) (packed_vecs _) tri_ok (all_rendered 2 1 1 1) (filled_vecs _ _ _ _ _) (glow_lamp 2) (packed_shared _ _) two_material (filled_vecs _ _ _ _ _)) as (out & E & S).
  assert (Q : phong_shape 1 1 1 = Ok (shp out)) by (unfold phong_shape; rewrite E; reflexivity).
  rewrite phong_shape_1, S in Q. discriminate.
Qed.

(* one channel *)
Definition grey_shape : result (list nat) :=
  rbind (gouraud_shading 1 [0; 0; 0]%nat tri_verts tri_normals tri (Some (channel 3 (/ 2))) (IT [1; 1; 1; 1]%nat (fun _ => 0%Z))
    (filled 1 1 1 1 (V3 1 0 0)) (Ambient (channel 1 1)) (packed [V3 0 0 3])
    (Mat (channel 1 1) (channel 1 1) (channel 1 1) (T [1%nat] (fun _ => 64)))) (fun t => Ok (shp t)).
Lemma grey_shape_3 : grey_shape = Ok [1; 1; 1; 1; 3]%nat.
Proof. reflexivity. Qed.
