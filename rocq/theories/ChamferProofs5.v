From Coq Require Import Reals Bool Lia Lra Permutation.
From Verif Require Import Base RBase Knn KnnSpec KnnProofs Chamfer ChamferSpec ChamferProofs ChamferProofs2 ChamferProofs3 ChamferProofs4.
Local Open Scope R_scope.

Lemma map_eq_f2 {A B C} (f : A -> C) (g : B -> C) a : forall b, map f a = map g b -> Forall2 (fun x y => f x = g y) a b.
Proof. induction a as [|x a IH]; intros [|y b] H; cbn in H; try discriminate; constructor; injection H as H1 H2; auto. Qed.
Lemma combine_swap {A B} (a : list A) (b : list B) : map (fun p => (snd p, fst p)) (combine a b) = combine b a.
Proof. revert b. induction a as [|x a IH]; intros [|y b]; cbn; try reflexivity. f_equal. apply IH. Qed.
Definition make_scene (t : trip) (jb : list nat) : scene :=
  {| s_a := firstn (ql (fst t)) (qx (fst t)); s_b := firstn (qm (fst t)) (qy (fst t)); s_na := firstn (ql (fst t)) (tn t); s_nb := firstn (qm (fst t)) (tm t); s_ja := firstn (ql (fst t)) (tj t); s_jb := jb |}.
Definition mirrored (t1 t2 : trip) : Prop := fst t2 = flip (fst t1) /\ tn t2 = tm t1 /\ tm t2 = tn t1.
Lemma mirror Q xn yn T1 T2 : map fst T1 = Q -> map (fun t => (tn t, tm t)) T1 = combine xn yn -> map fst T2 = map flip Q -> map (fun t => (tn t, tm t)) T2 = combine yn xn -> Forall2 mirrored T1 T2.
Proof.
  intros A B C D. assert (E : map (fun t => (flip (fst t), (tm t, tn t))) T1 = map (fun t => (fst t, (tn t, tm t))) T2).
  { rewrite <- (combine_map2 fst (fun t => (tn t, tm t)) T2), C, D, <- A, <- (combine_swap xn yn), <- B. rewrite !map_map. rewrite combine_map2. reflexivity. }
  apply map_eq_f2 in E. clear -E. induction E as [|t1 t2 l1 l2 H E' IH]; constructor; [injection H as H1 H2 H3; split; [symmetry; exact H1|]; split; symmetry; assumption|exact IH].
Qed.
Lemma batch_fields norm single x y xl yl xn yn T S : well_shaped x xl -> well_shaped y yl -> matching x y -> normals_fit x xn -> normals_fit y yn ->
  map fst T = quads x y xl yl -> map (fun t => (tn t, tm t)) T = combine xn yn -> List.Forall (t_good norm) T ->
  Forall2 (fun t s => s = make_scene t (s_jb s) /\ (single = false -> nearest_picks norm (s_b s) (s_a s) (s_jb s))) T S -> batch_of norm single x y xl yl xn yn S.
Proof.
  intros WX WY MA NX NY T1 T2 TG HS.
  assert (MS : forall {B} (f : scene -> B) (g : trip -> B), (forall t jb, f (make_scene t jb) = g t) -> map f S = map g T).
  { intros B f g H. clear -HS H. induction HS as [|t s T S (H1 & _) HS IH]; [reflexivity|]. cbn [map]. f_equal; [rewrite H1; apply H|exact IH]. }
  assert (EN : map tn T = xn /\ map tm T = yn). { pose proof (f_equal (map fst) T2) as E1. pose proof (f_equal (map snd) T2) as E2. rewrite map_map in E1, E2. cbn [fst snd] in *. destruct NX as (N1 & _), NY as (N2 & _), MA as (M1 & _). rewrite map_fst_combine in E1 by lia. rewrite map_snd_combine in E2 by lia. split; assumption. }
  destruct EN as (EN1 & EN2).
  assert (EX : xl = map (fun t => ql (fst t)) T) by (rewrite <- (q_l x y xl yl WX WY MA), <- T1; apply map_map). assert (EY : yl = map (fun t => qm (fst t)) T) by (rewrite <- (q_m x y xl yl WX WY MA), <- T1; apply map_map).
  unfold batch_of. split; [|split; [|split; [|split]]].
  - rewrite (q_clouds_x x y xl yl WX WY MA), <- T1, map_map. apply MS. reflexivity.
  - rewrite (q_clouds_y x y xl yl WX WY MA), <- T1, map_map. apply MS. reflexivity.
  - unfold cut_normals. rewrite EX at 1. rewrite <- EN1, combine_map2, map_map. apply MS. reflexivity.
  - unfold cut_normals. rewrite EY at 1. rewrite <- EN2, combine_map2, map_map. apply MS. reflexivity.
  - clear -HS TG. induction HS as [|t s T S (H1 & H2) HS IH]; [constructor|]. inversion TG as [|? ? G1 G2]; subst. constructor; [|apply IH; exact G2]. split; [|exact H2]. rewrite H1. cbn. apply G1.
Qed.
Lemma weighted_by_eq w {A} (f : A -> R) l : weighted_by w (map f l) = weighted w f l.
Proof. destruct w as [w|]; [|reflexivity]. unfold weighted_by, weighted. rewrite combine_map_r, map_map. reflexivity. Qed.
Lemma reduce_ok2 w b l n : length l = length n -> (match w with None => True | Some w => rsum w <> 0 end) -> batch_reduce (One (V l)) (Some (One (V n))) w b = Ok (reduced b w l, Some (reduced b w n)).
Proof.
  intros HL HW. unfold batch_reduce, reduced. destruct b as [[|]|]; cbn [tens_sum tens_len]; [| |reflexivity].
  - replace (rsum l / 1) with (rsum l) by field. replace (rsum n / 1) with (rsum n) by field. reflexivity.
  - destruct w as [w|]; [|rewrite HL; reflexivity]. destruct (Reqb_spec (rsum w) 0); [contradiction|reflexivity].
Qed.
Lemma shown_with_ok p ol on x l n : shown_with p ol on x l n -> well_shaped x l -> handle_input p ol on = Ok (x, l, Some n).
Proof.
  destruct p as [x'|x' l' n']; cbn [shown_with].
  - intros (-> & -> & H) W. destruct ol as [l'|]; [destruct H as (-> & N)|subst; reflexivity]. destruct W as (L & F & _). unfold handle_input. rewrite L, Nat.eqb_refl. cbn [negb]. destruct l as [|a xl]; [congruence|]. assert (M : In (max_nat (a :: xl)) (a :: xl)) by (apply max_nat_in; discriminate). rewrite Forall_forall in F. specialize (F _ M). destruct (Nat.ltb_spec (t_points x) (max_nat (a :: xl))); [lia|reflexivity].
  - intros (-> & -> & ->) _. reflexivity.
Qed.
Theorem chamfer_normals_value sort px py oxl oyl oxn oyn x y xl yl xn yn w b r norm single ab : shown_with px oxl oxn x xl xn -> shown_with py oyl oyn y yl yn ->
  r <> PMax -> norm = 1%nat \/ norm = 2%nat -> well_shaped x xl -> well_shaped y yl -> matching x y -> fine_weights w (length (t_data x)) -> normals_fit x xn -> normals_fit y yn ->
  List.Forall (fun l => (0 < l)%nat) yl -> (single = false -> List.Forall (fun l => (0 < l)%nat) xl) ->
  exists T, batch_of norm single x y xl yl xn yn T /\
  chamfer_distance sort px py oxl oyl oxn oyn w b (Some r) norm single ab =
  Ok (reduced b w (pair_losses r norm single w (combine (clouds x xl) (clouds y yl))), Some (reduced b w (weighted_by w (map (normals_both r ab single) T)))).
Proof.
  intros SX SY Hr Hn WX WY MA HW NX NY PY PX. unfold chamfer_distance. assert (E1 : negb (valid_reductions b (Some r)) = false) by reflexivity. rewrite E1.
  assert (E2 : negb ((norm =? 1)%nat || (norm =? 2)%nat) = false) by (destruct Hn as [-> | ->]; reflexivity). rewrite E2.
  replace (match r with PMax => match oxn, oyn with None, None => false | _, _ => true end | _ => false end) with false by (destruct r; [reflexivity|reflexivity|congruence]). cbv iota.
  rewrite (shown_with_ok _ _ _ _ _ _ SX WX), (shown_with_ok _ _ _ _ _ _ SY WY). cbn [rbind].
  assert (HWS : match w with None => True | Some w => rsum w <> 0 end) by (destruct w; [apply HW|exact I]). assert (HWP : match w with None => True | Some w => List.Forall (fun a => 0 <= a) w end) by (destruct w; [apply HW|exact I]).
  destruct (single_normals sort x y xl yl xn yn w r norm ab Hr Hn WX WY MA HW NX NY PY) as (T1 & A1 & A2 & A3 & ->). cbn [rbind]. rewrite (pair_losses_eq r norm single w x y xl yl WX WY MA).
  set (Q := quads x y xl yl) in *. assert (LQ : length T1 = length Q) by (rewrite <- A1, map_length; reflexivity).
  assert (HWL : match w with None => True | Some w => length w = length Q end). { destruct w as [w|]; [|exact I]. unfold Q. rewrite (q_len x y xl yl WX WY MA). apply HW. }
  assert (HWT : match w with None => True | Some w => length w = length T1 end) by (rewrite LQ; exact HWL).
  unfold both_ways. destruct single.
  - exists (map (fun t => make_scene t []) T1). split.
    + apply (batch_fields norm true x y xl yl xn yn T1); try assumption. clear. induction T1 as [|t T IH]; cbn [map]; constructor; [|exact IH]. split; [reflexivity|discriminate].
    + cbn [rbind option_map fst snd]. rewrite weighted_by_eq, weighted_map. rewrite reduce_ok2; [|rewrite !weighted_length by assumption; symmetry; exact LQ|exact HWS]. reflexivity.
  - assert (MA' : matching y x) by (destruct MA; split; symmetry; assumption). specialize (PX eq_refl).
    destruct (single_normals sort y x yl xl yn xn w r norm ab Hr Hn WY WX MA') as (T2 & B1 & B2 & B3 & ->); try assumption; [destruct MA as (M & _); rewrite <- M; exact HW|]. cbn [rbind].
    rewrite (q_flip x y xl yl WX WY MA) in *. fold Q in B1 |- *. rewrite weighted_map. pose proof (mirror Q xn yn T1 T2 A1 A2 B1 B2) as MI.
    set (TT := combine T1 T2).
    assert (LT : length T1 = length T2) by (clear -MI; induction MI; cbn; congruence).
    assert (HT : forall t, In t TT -> mirrored (fst t) (snd t) /\ t_good norm (fst t) /\ t_good norm (snd t)).
    { intros (t1, t2) Ht. cbn [fst snd]. rewrite Forall_forall in A3, B3. split; [|split; [apply A3; eapply in_combine_l; exact Ht|apply B3; eapply in_combine_r; exact Ht]]. clear -MI Ht. unfold TT in Ht. induction MI as [|u v U V H MI IH]; [destruct Ht|]. destruct Ht as [E|Ht]; [injection E as <- <-; exact H|apply IH; exact Ht]. }
    assert (E1' : weighted w (t_one r ab) T1 = weighted w (fun t => t_one r ab (fst t)) TT) by (rewrite <- (weighted_map w (t_one r ab) fst); unfold TT; rewrite map_fst_combine by exact LT; reflexivity).
    assert (E2' : weighted w (t_one r ab) T2 = weighted w (fun t => t_one r ab (snd t)) TT) by (rewrite <- (weighted_map w (t_one r ab) snd); unfold TT; rewrite map_snd_combine by exact LT; reflexivity).
    assert (LTT : length TT = length Q) by (unfold TT; rewrite combine_length, <- LT, LQ, Nat.min_id; reflexivity).
    assert (HWTT : match w with None => True | Some w => length w = length TT end) by (rewrite LTT; exact HWL).
    exists (map (fun t => make_scene (fst t) (firstn (ql (fst (snd t))) (tj (snd t)))) TT). split.
    + apply (batch_fields norm false x y xl yl xn yn T1); try assumption. rewrite <- (map_fst_combine T1 T2 LT) at 1. fold TT. clear -HT. induction TT as [|t T IH]; cbn [map]; constructor; [|apply IH; intros; apply HT; right; assumption]. split; [reflexivity|]. intros _. destruct (HT t (or_introl eq_refl)) as ((M1 & M2 & M3) & _ & G). cbn. destruct G as (_ & _ & _ & G). rewrite M1 in G |- *. exact G.
    + rewrite weighted_by_eq, weighted_map. rewrite E1', E2'.
      assert (EN : map (fun p => fst p + snd p) (combine (weighted w (fun t => t_one r ab (fst t)) TT) (weighted w (fun t => t_one r ab (snd t)) TT)) = weighted w (fun a => normals_both r ab false (make_scene (fst a) (firstn (ql (fst (snd a))) (tj (snd a))))) TT).
      { rewrite (weighted_zip w Rplus _ _ TT HWP) by (intros; ring). apply weighted_ext. intros t Ht. destruct (HT t Ht) as ((M1 & M2 & M3) & _ & _). unfold normals_both, t_one. cbn. rewrite M1, M2, M3. reflexivity. }
      destruct r; [| |congruence]; cbn [zip_tens]; rewrite !weighted_length, !Nat.eqb_refl by assumption; cbn [rbind fst snd];
      rewrite EN, (weighted_zip w Rplus _ _ Q HWP) by (intros; ring); (rewrite reduce_ok2; [reflexivity|rewrite !weighted_length by assumption; symmetry; exact LTT|exact HWS]).
Qed.
