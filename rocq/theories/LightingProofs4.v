(* Lights, materials and pixels. *)
From Coq Require Import Lra.
From Verif Require Import Base RBase Geom LinAlg Tens Lighting LightingSpec LightingProofs LightingProofs2 LightingProofs3.
Local Open Scope R_scope.

(* a with batch size m, 1 or n *)
Lemma bop_mv op a b n m ds d f g : (m = n \/ m = 1)%nat -> shp a = m :: d ++ [3%nat] -> length d = length ds ->
  (forall i js, (i < n)%nat -> inside js ds -> row a (pk m i :: pick d js) = f i js) ->
  vecs b n ds g -> zipdims d ds = Ok ds ->
  exists r, bop op a b = Ok r /\ vecs r n ds (fun i js => map3 op (f i js) (g i js)).
Proof.
  intros Hm Sa La Ha (Sb & Hb) Z.
  assert (ZZ : zipdims (shp a) (shp b) = Ok (n :: ds ++ [3%nat])).
  { rewrite Sa, Sb. change (n :: ds ++ [3%nat]) with ([n] ++ ds ++ [3%nat]).
    change (m :: d ++ [3%nat]) with ([m] ++ d ++ [3%nat]).
    apply zip_app; [|apply zip_app; [exact Z|reflexivity]]. destruct Hm as [->| ->]; [apply zip_same|].
    cbn [zipdims rbind]. destruct (Nat.eqb_spec 1 n); [subst; reflexivity|reflexivity]. }
  rewrite (bop_zip _ _ _ _ ZZ). eexists. split; [reflexivity|]. split; [reflexivity|].
  intros i js Hi J. pose proof (inside_length _ _ J) as LJ.
  rewrite <- (Ha i js Hi J), <- (Hb i js Hi J). unfold row, map3. cbn [get x3 y3 z3]. rewrite Sa, Sb.
  rewrite <- !app_comm_cons. rewrite !(pick_cons m) by (rewrite !app_length; cbn; lia). rewrite !(pick_app d) by (cbn; lia).
  rewrite !(pick_at n ds) by (first [exact Hi | reflexivity | lia]). rewrite (pick_full _ _ J). reflexivity.
Qed.
Lemma prop3_get t n f : prop3 t n f -> exists m, (m = n \/ m = 1)%nat /\ shp t = [m; 3%nat] /\ forall i, (i < n)%nat -> row t [pk m i] = f i.
Proof.
  intros [(S & H)|(S & H)].
  - exists n. split; [left; reflexivity|]. split; [exact S|]. intros i Hi. rewrite pk_lt by exact Hi. apply H, Hi.
  - exists 1%nat. split; [right; reflexivity|]. split; [exact S|]. intros i Hi. apply H, Hi.
Qed.
Definition three (ds : list nat) : Prop := ds = [] \/ exists h w k, ds = [h; w; k].
Lemma location_eval loc pts n ds X P : prop3 loc n X -> vecs pts n ds P -> three ds ->
  exists x, reshape_location loc pts = Ok x /\
  exists v, bop Rminus x pts = Ok v /\ vecs v n ds (fun i js => sub3 (X i) (P i js)).
Proof.
  intros PX VP TD. destruct (prop3_get _ _ _ PX) as (m & Hm & SX & HX). unfold reshape_location. rewrite SX, (proj1 VP).
  destruct TD as [->|(h & w & k & ->)].
  - cbn [length app Nat.eqb]. exists loc. split; [reflexivity|].
    destruct (bop_mv Rminus loc pts n m [] [] (fun i _ => X i) P Hm SX eq_refl) as (v & E & V); [|exact VP|reflexivity|].
    { intros i js Hi J. apply HX, Hi. }
    exists v. split; [exact E|exact V].
  - cbn [length app Nat.eqb]. unfold spread_batch. rewrite SX. eexists. split; [reflexivity|].
    match goal with |- exists v, bop _ ?x _ = _ /\ _ => destruct (bop_mv Rminus x pts n m [h; w; k] (ones 3) (fun i _ => X i) P Hm eq_refl eq_refl) as (v & E & V) end; [|exact VP|apply (zip_ones [h; w; k])|].
    { intros i js Hi J. rewrite pick_ones by (apply inside_length in J; exact J). rewrite <- (HX i Hi). reflexivity. }
    exists v. split; [exact E|exact V].
Qed.
Lemma zeros_eval a pts n ds P la : prop3 a n la -> vecs pts n ds P -> vecs (zeros_channels a pts) n ds (fun _ _ => vzero).
Proof.
  intros PA (SP & _). destruct (prop3_get _ _ _ PA) as (m & _ & SA & _). unfold zeros_channels, last_dim. rewrite SA, SP.
  split; [cbn [shp last]; rewrite app_comm_cons, removelast_last; reflexivity|]. intros. reflexivity.
Qed.
Lemma vecs_ext t n ds f g : (forall i js, (i < n)%nat -> inside js ds -> f i js = g i js) -> vecs t n ds f -> vecs t n ds g.
Proof. intros E (S & H). split; [exact S|]. intros i js Hi J. rewrite <- E by assumption. apply H; assumption. Qed.
Lemma scal_zero c : scal3 c vzero = vzero.
Proof. unfold scal3, vzero. cbn. f_equal; ring. Qed.
Lemma light_diffuse_eval l n la ld ls tw normals points ds N P : (0 < n)%nat -> lamp l n la ld ls tw -> three ds ->
  vecs normals n ds N -> vecs points n ds P ->
  exists t, light_diffuse l normals points = Ok t /\ vecs t n ds (fun i js => scal3 (lit (N i js) (tw i (P i js))) (ld i)).
Proof.
  intros Hn HL TD VN VP. destruct l as [a d s v|a d s x|a]; cbn [lamp light_diffuse] in *.
  - destruct HL as (_ & HD & _ & dir & HV & E). destruct (diffuse_eval normals d v n ds N ld (fun i _ => dir i) Hn VN HD (prop3_direction _ _ _ _ HV)) as (t & R & V).
    exists t. split; [exact R|]. eapply vecs_ext; [|exact V]. intros i js _ _. cbn beta. rewrite E. reflexivity.
  - destruct HL as (_ & HD & _ & loc & HV & E). destruct (location_eval _ _ _ _ _ _ HV VP TD) as (x' & E1 & v & E2 & V'). rewrite E1. cbn [rbind]. rewrite E2. cbn [rbind].
    destruct (diffuse_eval normals d v n ds N ld _ Hn VN HD (or_introl V')) as (t & R & V).
    exists t. split; [exact R|]. eapply vecs_ext; [|exact V]. intros i js _ _. cbn beta. rewrite E. reflexivity.
  - destruct HL as (HA & HD & HS). exists (zeros_channels a points). split; [reflexivity|].
    eapply vecs_ext; [|eapply zeros_eval; eassumption]. intros i js _ _. cbn beta. rewrite HD, scal_zero. reflexivity.
Qed.
Lemma light_specular_eval l n la ld ls tw normals points cam shin ds N P C s : (0 < n)%nat -> lamp l n la ld ls tw -> three ds ->
  vecs normals n ds N -> vecs points n ds P -> prop3 cam n C -> prop1 shin n s ->
  exists t, light_specular l normals points cam shin = Ok t /\
    vecs t n ds (fun i js => scal3 (shine (N i js) (tw i (P i js)) (sub3 (C i) (P i js)) (s i)) (ls i)).
Proof.
  intros Hn HL TD VN VP HC HS. destruct l as [a d sp v|a d sp x|a]; cbn [lamp light_specular] in *.
  - destruct HL as (_ & _ & HD & dir & HV & E).
    destruct (specular_eval points normals v sp cam shin n ds P N (fun i _ => dir i) ls C s Hn VP VN (prop3_direction _ _ _ _ HV) HD HC HS) as (t & R & V).
    exists t. split; [exact R|]. eapply vecs_ext; [|exact V]. intros i js _ _. cbn beta. rewrite E. reflexivity.
  - destruct HL as (_ & _ & HD & loc & HV & E). destruct (location_eval _ _ _ _ _ _ HV VP TD) as (x' & E1 & v & E2 & V'). rewrite E1. cbn [rbind]. rewrite E2. cbn [rbind].
    destruct (specular_eval points normals v sp cam shin n ds P N _ ls C s Hn VP VN (or_introl V') HD HC HS) as (t & R & V).
    exists t. split; [exact R|]. eapply vecs_ext; [|exact V]. intros i js _ _. cbn beta. rewrite E. reflexivity.
  - destruct HL as (HA & HD & HE). exists (zeros_channels a points). split; [reflexivity|].
    eapply vecs_ext; [|eapply zeros_eval; eassumption]. intros i js _ _. cbn beta. rewrite HE, scal_zero. reflexivity.
Qed.

(* ---- the constructors ---- *)
Lemma expand_prop_m t n m f : (0 < n)%nat -> (m = n \/ m = 1)%nat -> prop3 t n f -> (batch_size t <= m)%nat ->
  exists t', expand_batch m t = Ok t' /\ prop3 t' n f /\ shp t' = [m; 3%nat].
Proof.
  intros Hn Hm HP L. destruct (prop3_get _ _ _ HP) as (q & Hq & S & G). unfold batch_size in L. rewrite S in L. cbn [hd] in L.
  unfold expand_batch. rewrite S.
  assert (B : (negb (q =? 1) && negb (q =? m) = false)%nat).
  { destruct (Nat.eqb_spec q 1), (Nat.eqb_spec q m); try reflexivity. lia. }
  rewrite B. eexists. split; [reflexivity|]. split; [|reflexivity].
  destruct Hm as [->| ->]; [left|right]; (split; [reflexivity|]); intros i Hi; rewrite <- (G i Hi); unfold row; cbn [get app pk];
    [reflexivity|]. unfold pk. replace (if (q =? 1)%nat then 0%nat else 0%nat) with (if (q =? 1)%nat then 0%nat else i); [reflexivity|].
  destruct (Nat.eqb_spec q 1); [reflexivity|]. lia.
Qed.
Lemma sizes_max n l : (0 < n)%nat -> l <> [] -> (forall x, In x l -> x = n \/ x = 1)%nat ->
  (max_nat l = n \/ max_nat l = 1)%nat /\ forall x, In x l -> (x <= max_nat l)%nat.
Proof.
  intros Hn NE H. split.
  - destruct l as [|a l]; [contradiction|]. clear NE. revert a H; induction l as [|b l IH]; intros a H.
    + cbn. destruct (H a (or_introl eq_refl)); lia.
    + assert (IH' : (max_nat (b :: l) = n \/ max_nat (b :: l) = 1)%nat) by (apply IH; intros x Hx; apply H; right; exact Hx).
      cbn [max_nat fold_right] in *. destruct (H a (or_introl eq_refl)); lia.
  - clear. induction l as [|a l IH]; intros x Hx; [destruct Hx|]. cbn [max_nat fold_right]. destruct Hx as [->|Hx]; [lia|]. specialize (IH x Hx). unfold max_nat in IH. lia.
Qed.
Lemma lights_built n a d s v la ld ls x : (0 < n)%nat -> prop3 a n la -> prop3 d n ld -> prop3 s n ls -> prop3 v n x ->
  (exists l, directional_lights a d s v = Ok l /\ lamp l n la ld ls (fun i _ => x i)) /\ (exists l, point_lights a d s v = Ok l /\ lamp l n la ld ls (fun i p => sub3 (x i) p)).
Proof.
  intros Hn HA HD HS HV.
  destruct (sizes_max n (map batch_size [a; d; s; v]) Hn) as (M & LE); [discriminate| |].
  { intros y [<-|[<-|[<-|[<-|[]]]]]; eapply prop3_size; eassumption. }
  set (m := max_nat (map batch_size [a; d; s; v])) in *.
  destruct (expand_prop_m a n m la Hn M HA) as (a' & EA & PA & SA); [apply LE; cbn; tauto|].
  destruct (expand_prop_m d n m ld Hn M HD) as (d' & ED & PD & SD); [apply LE; cbn; tauto|].
  destruct (expand_prop_m s n m ls Hn M HS) as (s' & ES & PS & SS); [apply LE; cbn; tauto|].
  destruct (expand_prop_m v n m x Hn M HV) as (v' & EV & PV & SV); [apply LE; cbn; tauto|].
  assert (B : broadcast [a; d; s; v] = Ok [a'; d'; s'; v']).
  { unfold broadcast. fold m. cbn [rmap]. rewrite EA. cbn [rbind]. rewrite ED. cbn [rbind]. rewrite ES. cbn [rbind]. rewrite EV. reflexivity. }
  unfold directional_lights, point_lights. rewrite B. cbn [rbind forallb]. unfold channels3, last_dim. rewrite SA, SD, SS, SV. cbn [last Nat.eqb andb].
  split; eexists; (split; [reflexivity|]); cbn [lamp]; (split; [exact PA|]); (split; [exact PD|]); (split; [exact PS|]); exists x; (split; [exact PV|reflexivity]).
Qed.

(* ---- apply_lighting on pixels: one material ---- *)
Lemma bop_shared op a b n h w k f g : shp a = [1; 3]%nat -> row a [0%nat] = f -> vecs b n [h; w; k] g ->
  exists r, bop op a b = Ok r /\ vecs r n [h; w; k] (fun i js => map3 op f (g i js)).
Proof.
  intros Sa <- (Sb & Hb).
  assert (ZZ : bshape (shp a) (shp b) = Ok (n :: [h; w; k] ++ [3%nat])).
  { rewrite Sa, Sb. unfold bshape, left_pad. cbn [length Nat.max Nat.sub repeat app].
    change [1; 1; 1; 1; 3]%nat with ([1; 1; 1; 1]%nat ++ [3%nat]). change [n; h; w; k; 3%nat] with ([n; h; w; k] ++ [3%nat]).
    apply zip_app; [apply (zip_ones [n; h; w; k])|reflexivity]. }
  unfold bop. rewrite ZZ. cbn [rbind]. eexists. split; [reflexivity|]. split; [reflexivity|].
  intros i js Hi J. rewrite <- (Hb i js Hi J). pose proof (inside_length _ _ J) as LJ.
  destruct js as [|j0 [|j1 [|j2 [|? ?]]]]; try discriminate. 
  assert (Q : forall c, (c < 3)%nat -> pick [n; h; w; k; 3%nat] [i; j0; j1; j2; c] = [i; j0; j1; j2; c]).
  { intros c Hc. apply pick_full. constructor; [exact Hi|]. apply (Forall2_app (l1 := [j0; j1; j2]) (l1' := [h; w; k]) J). constructor; [exact Hc|constructor]. }
  unfold row, map3. cbn [get x3 y3 z3]. rewrite Sa, Sb. cbn [app]. rewrite !Q by lia. reflexivity.
Qed.
Lemma ambient_eval m a n ma la : shp m = [1; 3]%nat -> row m [0%nat] = ma -> prop3 a n la ->
  exists r, bop Rmult m a = Ok r /\ prop3 r n (fun i => tint ma (la i)).
Proof.
  intros Sm <- PA. destruct (prop3_get _ _ _ PA) as (q & Hq & S & G).
  assert (ZZ : zipdims (shp m) (shp a) = Ok [q; 3%nat]).
  { rewrite Sm, S. change [1; 3]%nat with ([1%nat] ++ [3%nat]). change [q; 3%nat] with ([q] ++ [3%nat]). apply zip_app; [apply (zip_ones [q])|reflexivity]. }
  rewrite (bop_zip _ _ _ _ ZZ). eexists. split; [reflexivity|].
  assert (V : forall j, (j < q)%nat -> row (T [q; 3%nat] (fun idx => get m (pick (shp m) idx) * get a (pick (shp a) idx))) [j] = tint (row m [0%nat]) (row a [j])).
  { intros j Hj. unfold row, tint. cbn [get app x3 y3 z3]. rewrite Sm, S. cbn [pick length Nat.sub skipn combine map fst snd Nat.eqb].
    replace (if (q =? 1)%nat then 0%nat else j) with j; [reflexivity|]. destruct (Nat.eqb_spec q 1); lia. }
  destruct Hq as [->| ->].
  - left. split; [reflexivity|]. intros i Hi. rewrite V by exact Hi. rewrite <- (G i Hi). rewrite pk_lt by exact Hi. reflexivity.
  - right. split; [reflexivity|]. intros i Hi. rewrite V by lia. rewrite <- (G i Hi). reflexivity.
Qed.
Lemma combine_eval a d s x n h w k A D S X : prop3 a n A -> vecs d n [h; w; k] D -> vecs s n [h; w; k] S -> vecs x n [h; w; k] X ->
  exists a', spread_batch a = Ok a' /\
  exists r, combine_colors a' d s x = Ok r /\
    vecs r n [h; w; k] (fun i js => add3 (tint (add3 (A i) (D i js)) (X i js)) (S i js)).
Proof.
  intros PA VD VS VX. destruct (prop3_get _ _ _ PA) as (q & Hq & SA & G). unfold spread_batch. rewrite SA. eexists. split; [reflexivity|].
  unfold combine_colors.
  match goal with |- exists r, rbind (bop Rplus ?x d) _ = _ /\ _ => destruct (bop_mv Rplus x d n q [h; w; k] (ones 3) (fun i _ => A i) D Hq eq_refl eq_refl) as (u & -> & VU) end; [|exact VD|apply (zip_ones [h; w; k])|].
  { intros i js Hi J. rewrite pick_ones by (apply inside_length in J; exact J). rewrite <- (G i Hi). reflexivity. }
  cbn [rbind]. apply vecs_wide in VU. apply vecs_wide in VX. apply vecs_wide in VS.
  destruct (bop_vv Rmult _ _ _ _ _ _ _ _ VU VX (zip_same _)) as (y & -> & VY). cbn [rbind].
  destruct (bop_vv Rplus _ _ _ _ _ _ _ _ VY VS (zip_same _)) as (r & -> & VR). exists r. split; [reflexivity|].
  apply vecs_wide. exact VR.
Qed.
Lemma pixels_eval l m n la ld ls tw ma md ms s cam C points normals h w k P N x X : (0 < n)%nat ->
  lamp l n la ld ls tw -> shared_material m ma md ms s -> prop3 cam n C ->
  vecs points n [h; w; k] P -> vecs normals n [h; w; k] N -> vecs x n [h; w; k] X ->
  exists a d sp r, apply_lighting points normals l cam m = Ok (a, d, sp) /\ combine_colors a d sp x = Ok r /\
    vecs r n [h; w; k] (fun i js =>
      add3 (tint (add3 (tint ma (la i)) (tint md (scal3 (lit (N i js) (tw i (P i js))) (ld i)))) (X i js))
           (tint ms (scal3 (shine (N i js) (tw i (P i js)) (sub3 (C i) (P i js)) s) (ls i)))).
Proof.
  intros Hn HL (SA & MA & SD & MD & SS & MS & SE & ME) HC VP VN VX.
  assert (TD : three [h; w; k]) by (right; exists h, w, k; reflexivity).
  assert (PE : prop1 (m_shininess m) n (fun _ => s)) by (right; split; [exact SE|intros; exact ME]).
  assert (PA : prop3 (ambient_of l) n la) by (destruct l; cbn [lamp ambient_of] in *; apply HL).
  unfold apply_lighting.
  destruct (light_diffuse_eval l n la ld ls tw normals points _ N P Hn HL TD VN VP) as (dt & -> & VD). cbn [rbind].
  destruct (light_specular_eval l n la ld ls tw normals points cam _ _ N P C _ Hn HL TD VN VP HC PE) as (st & -> & VS). cbn [rbind].
  destruct (ambient_eval _ _ _ _ _ SA MA PA) as (at_ & -> & PT). cbn [rbind].
  destruct (bop_shared Rmult _ _ _ _ _ _ _ _ SD MD VD) as (d' & -> & VD'). cbn [rbind].
  destruct (bop_shared Rmult _ _ _ _ _ _ _ _ SS MS VS) as (s' & -> & VS'). cbn [rbind].
  rewrite (proj1 VN), (proj1 VD'). cbn [length app Nat.eqb andb].
  destruct (prop3_get _ _ _ PT) as (q & _ & SQ & _). rewrite SQ. cbn [length Nat.eqb negb].
  destruct (combine_eval at_ d' s' x n h w k _ _ _ _ PT VD' VS' VX) as (a' & -> & r & R & VR). cbn [rbind].
  exists a', d', s', r. split; [reflexivity|]. split; [exact R|]. exact VR.
Qed.
