(* Subdividing a closed surface gives a closed surface. *)
From Coq Require Import Sorted Permutation.
From Verif Require Import Base RBase Geom FaceAreas FaceAreasSpec MeshesSpec SubdivideSpec ShapesSpec MeshesProofs10.
Local Open Scope Z_scope.

Definition corner := (face * (Z * Z * Z))%type.
Definition rot (q : corner) : corner := let '((a, b, c), (i, j, k)) := q in ((b, c, a), (j, k, i)).
Definition turns (q : corner) : list corner := [q; rot q; rot (rot q)].
Definition first_side (q : corner) : Z * Z := let '((a, b, c), _) := q in (a, b).
Definition four (V : Z) (q : corner) : list (Z * Z) :=
  let '((a, b, c), (i, j, k)) := q in [(a, V + k); (V + k, V + j); (V + j, a); (V + j, V + k)].

Lemma rot3 q : rot (rot (rot q)) = q.
Proof. destruct q as (((a, b), c), ((i, j), k)). reflexivity. Qed.
Lemma first_turns fs : forall t, length t = length fs ->
  map first_side (flat_map turns (combine fs t)) = directed fs.
Proof.
  induction fs as [|((a, b), c) fs IH]; intros [|((i, j), k) t] H; cbn in *; try lia; try reflexivity.
  f_equal. f_equal. f_equal. apply IH. lia.
Qed.
Lemma turns_rot l q : In q (flat_map turns l) -> In (rot q) (flat_map turns l).
Proof.
  rewrite !in_flat_map. intros (p & Hp & H). exists p. split; [exact Hp|].
  unfold turns in *. cbn in *. destruct H as [<-|[<-|[<-|[]]]]; rewrite ?rot3; auto.
Qed.

Lemma perm_move {A} (f g : corner -> list A) l :
  Permutation (flat_map f l ++ flat_map g l) (flat_map (fun q => f q ++ g q) l).
Proof.
  induction l as [|q l IH]; cbn; [constructor|]. rewrite <- !app_assoc. apply Permutation_app_head.
  rewrite <- IH. rewrite !app_assoc. apply Permutation_app_tail. apply Permutation_app_comm.
Qed.
Lemma directed_app a b : directed (a ++ b) = directed a ++ directed b.
Proof. apply flat_map_app. Qed.
Lemma directed_map (g : corner -> face) l : directed (map g l) = flat_map (fun q => rim (g q)) l.
Proof. unfold directed. rewrite flat_map_concat_map, map_map, <- flat_map_concat_map. reflexivity. Qed.

Lemma flat_map_flat {A B C} (f : A -> list B) (g : B -> list C) l : flat_map g (flat_map f l) = flat_map (fun x => flat_map g (f x)) l.
Proof. induction l; cbn; [reflexivity|]. rewrite flat_map_app, IHl. reflexivity. Qed.
Lemma flat_map_perm {A B} (f g : A -> list B) l : (forall x, In x l -> Permutation (f x) (g x)) -> Permutation (flat_map f l) (flat_map g l).
Proof.
  induction l; cbn; intros H; [constructor|]. apply Permutation_app; [apply H; auto|apply IHl; auto].
Qed.
Definition zz_dec (x y : Z * Z) : {x = y} + {x <> y}.
Proof. decide equality; apply Z.eq_dec. Defined.
Definition hit (x y : Z * Z) : nat := if zz_dec y x then 1%nat else 0%nat.
Lemma count_cons y l x : count_occ zz_dec (y :: l) x = (hit x y + count_occ zz_dec l x)%nat.
Proof. unfold hit. cbn. destruct (zz_dec y x); reflexivity. Qed.

Lemma directed_new V l : Permutation
  (directed (map (at_a V) l ++ map (at_b V) l ++ map (at_c V) l ++ map (inner V) l))
  (flat_map (four V) (flat_map turns l)).
Proof.
  rewrite !directed_app, !directed_map, flat_map_flat.
  rewrite (perm_move (fun q => rim (at_c V q)) (fun q => rim (inner V q)) l).
  rewrite (perm_move (fun q => rim (at_b V q)) _ l). rewrite (perm_move (fun q => rim (at_a V q)) _ l).
  apply flat_map_perm. intros (((a, b), c), ((i, j), k)) _. cbn.
  apply (Permutation_count_occ zz_dec). intros x. rewrite !count_cons. lia.
Qed.

Lemma nodup_flat_map {A B} (f : A -> list B) l : NoDup l -> (forall x, In x l -> NoDup (f x)) ->
  (forall x y z, In x l -> In y l -> In z (f x) -> In z (f y) -> x = y) -> NoDup (flat_map f l).
Proof.
  induction l as [|x l IH]; cbn; intros N F D; [constructor|]. apply NoDup_cons_iff in N. destruct N as (Nx & Nl).
  apply nodup_app; [apply F; auto|apply IH; auto; intros; eapply D; eauto|].
  intros z Hz Hl. apply in_flat_map in Hl. destruct Hl as (y & Hy & Hzy). apply Nx. rewrite (D x y z); auto.
Qed.
Lemma nodup_of_map {A B} (f : A -> B) l : NoDup (map f l) -> NoDup l /\ forall x y, In x l -> In y l -> f x = f y -> x = y.
Proof.
  induction l as [|x l IH]; cbn; intros N; [split; [constructor|contradiction]|]. apply NoDup_cons_iff in N. destruct N as (Nx & Nl).
  destruct (IH Nl) as (N' & I). split.
  - constructor; [|exact N']. intros H. apply Nx. apply in_map. exact H.
  - intros y z [<-|Hy] [<-|Hz] E; auto.
    + exfalso. apply Nx. rewrite E. apply in_map. exact Hz.
    + exfalso. apply Nx. rewrite <- E. apply in_map. exact Hy.
Qed.

Lemma low_high_eq x y x' y' : low_high (x, y) = low_high (x', y') -> (x = x' /\ y = y') \/ (x = y' /\ y = x').
Proof. unfold low_high. cbn. intros H. injection H. lia. Qed.

Section Closed.
Variables (p : mesh) (E : list (Z * Z)) (t : list (Z * Z * Z)).
Let V := Z.of_nat (length (fst p)).
Let C := flat_map turns (combine (snd p) t).
Hypothesis HE : edge_list (snd p) E.
Hypothesis HF : Forall2 (opposite_edges E) (snd p) t.
Hypothesis G : good_mesh p.
Hypothesis HC : closed_surface (snd p).
Hypothesis HO : one_sided (snd p).

Lemma lens : length t = length (snd p).
Proof. symmetry. eapply Forall2_length. exact HF. Qed.
Lemma C_first : map first_side C = directed (snd p).
Proof. apply first_turns, lens. Qed.
Lemma C_nodup : NoDup C /\ forall x y, In x C -> In y C -> first_side x = first_side y -> x = y.
Proof. apply nodup_of_map. rewrite C_first. apply HC. Qed.
Lemma C_rot q : In q C -> In (rot q) C.
Proof. apply turns_rot. Qed.

Definition fine (q : corner) : Prop := let '((a, b, c), (i, j, k)) := q in
  opposite_edges E (a, b, c) (i, j, k) /\ in_range (length (fst p)) (a, b, c).
Lemma low_high_swap x y : low_high (x, y) = low_high (y, x).
Proof. unfold low_high. cbn. rewrite Z.min_comm, Z.max_comm. reflexivity. Qed.
Lemma fine_rot q : fine q -> fine (rot q).
Proof. destruct q as (((a, b), c), ((i, j), k)). cbn. tauto. Qed.
Lemma combine_f2 {A B} (P : A -> B -> Prop) l l' x y : Forall2 P l l' -> In (x, y) (combine l l') -> In x l /\ P x y.
Proof.
  intros H. induction H; cbn; [contradiction|]. intros [Ea|Hi]; [injection Ea as -> ->; auto|]. destruct (IHForall2 Hi); auto.
Qed.
Lemma C_face q : In q C -> exists f, In f (snd p) /\ same_face f (fst q) /\ fine q.
Proof.
  intros H. apply in_flat_map in H. destruct H as (r & Hr & H). destruct r as (f, e).
  destruct (combine_f2 _ _ _ _ _ HF Hr) as (Hf & Ho). exists f. split; [exact Hf|].
  assert (F0 : fine (f, e)).
  { unfold good_mesh in G. rewrite Forall_forall in G. specialize (G f Hf). destruct f as ((a, b), c), e as ((i, j), k). split; assumption. }
  unfold turns in H. destruct H as [<-|[<-|[<-|[]]]].
  - split; [|exact F0]. destruct f as ((a, b), c). cbn. auto.
  - split; [|apply fine_rot, F0]. destruct f as ((a, b), c), e as ((i, j), k). cbn. auto.
  - split; [|apply fine_rot, fine_rot, F0]. destruct f as ((a, b), c), e as ((i, j), k). cbn. auto.
Qed.
Lemma C_fine q : In q C -> fine q.
Proof. intros H. destruct (C_face q H) as (f & _ & _ & F). exact F. Qed.
Lemma C_sides a b c i j k : In ((a, b, c), (i, j, k)) C -> In (a, b) (directed (snd p)) /\ In (b, c) (directed (snd p)) /\ In (c, a) (directed (snd p)).
Proof.
  intros H. rewrite <- C_first. pose proof (C_rot _ H) as H1. pose proof (C_rot _ H1) as H2.
  repeat split; [exact (in_map first_side _ _ H)|exact (in_map first_side _ _ H1)|exact (in_map first_side _ _ H2)].
Qed.
Lemma C_differ a b c i j k : In ((a, b, c), (i, j, k)) C -> a <> b /\ b <> c /\ c <> a.
Proof. intros H. destruct (C_sides _ _ _ _ _ _ H) as (H1 & H2 & H3). destruct HC as (_ & D). repeat split; eapply D; eassumption. Qed.
(* no corner is there in both orientations *)
Lemma C_one a b c i j k i' j' k' : In ((a, b, c), (i, j, k)) C -> In ((a, c, b), (i', j', k')) C -> False.
Proof.
  intros H H'. destruct (C_face _ H) as (f & Hf & Sf & _), (C_face _ H') as (g & Hg & Sg & _).
  apply (HO f g Hf Hg). destruct f as ((fa, fb), fc), g as ((ga, gb), gc). cbn in *.
  destruct Sf as [Sf|[Sf|Sf]]; injection Sf as -> -> ->; destruct Sg as [Sg|[Sg|Sg]]; injection Sg as -> -> ->; auto.
Qed.

Lemma E_inj i i' e : 0 <= i -> 0 <= i' -> nth_error E (Z.to_nat i) = Some e -> nth_error E (Z.to_nat i') = Some e -> i = i'.
Proof.
  intros Hi Hi' H H'. assert (N : NoDup E) by apply lex_sorted_nodup, HE.
  assert (Z.to_nat i = Z.to_nat i'); [|lia]. rewrite NoDup_nth_error in N. apply N; [|congruence]. apply nth_error_Some. congruence.
Qed.
Lemma C_edge_same q q' : In q C -> In q' C -> first_side q = first_side q' -> q = q'.
Proof. apply C_nodup. Qed.
Lemma rot_inj q q' : rot q = rot q' -> q = q'.
Proof. intros H. rewrite <- (rot3 q), <- (rot3 q'), H. reflexivity. Qed.

Lemma four_inj q q' e : In q C -> In q' C -> In e (four V q) -> In e (four V q') -> q = q'.
Proof.
  intros H H'. pose proof (C_fine q H) as Fq. pose proof (C_fine q' H') as Fq'.
  destruct q as (((a, b), c), ((i, j), k)), q' as (((a', b'), c'), ((i', j'), k')).
  pose proof (C_differ _ _ _ _ _ _ H) as D. pose proof (C_differ _ _ _ _ _ _ H') as D'.
  destruct Fq as ((Hp & Hi & Hj & Hk) & (Ra & Rb & Rc)), Fq' as ((Hp' & Hi' & Hj' & Hk') & (Ra' & Rb' & Rc')).
  assert (O : forall x y z w u v, nth_error E (Z.to_nat u) = Some (low_high (x, y)) -> nth_error E (Z.to_nat v) = Some (low_high (z, w)) ->
     V + u = V + v -> (x = z /\ y = w) \/ (x = w /\ y = z)).
  { intros x y z w u v E1 E2 Ev. assert (u = v) by lia. subst v. rewrite E1 in E2. injection E2 as E2. apply low_high_eq. unfold low_high. cbn. f_equal; assumption. }
  cbn [four In]. subst V.
  intros [Q|[Q|[Q|[Q|[]]]]] [Q'|[Q'|[Q'|[Q'|[]]]]]; rewrite <- Q in Q'; injection Q' as Q1 Q2; clear Q; try (exfalso; lia).
  - subst a'. apply C_edge_same; auto. cbn. f_equal. destruct (O _ _ _ _ _ _ Hk' Hk Q2) as [(? & ?)|(? & ?)]; lia.
  - destruct (O _ _ _ _ _ _ Hk' Hk Q1) as [(? & ?)|(? & ?)], (O _ _ _ _ _ _ Hj' Hj Q2) as [(? & ?)|(? & ?)]; apply C_edge_same; auto; cbn; f_equal; lia.
  - destruct (O _ _ _ _ _ _ Hj' Hk Q1) as [(? & ?)|(? & ?)], (O _ _ _ _ _ _ Hk' Hj Q2) as [(? & ?)|(? & ?)]; try (exfalso; lia).
    exfalso. assert (a' = a) by lia. assert (b' = c) by lia. assert (c' = b) by lia. subst. eapply C_one; eassumption.
  - subst a'. destruct (O _ _ _ _ _ _ Hj' Hj Q1) as [(? & ?)|(? & ?)]; [|exfalso; lia]. subst c'.
    apply rot_inj, rot_inj. apply C_edge_same; [apply C_rot, C_rot; exact H|apply C_rot, C_rot; exact H'|reflexivity].
  - destruct (O _ _ _ _ _ _ Hk' Hj Q1) as [(? & ?)|(? & ?)], (O _ _ _ _ _ _ Hj' Hk Q2) as [(? & ?)|(? & ?)]; try (exfalso; lia).
    exfalso. assert (a' = a) by lia. assert (b' = c) by lia. assert (c' = b) by lia. subst. eapply C_one; eassumption.
  - destruct (O _ _ _ _ _ _ Hj' Hj Q1) as [(? & ?)|(? & ?)], (O _ _ _ _ _ _ Hk' Hk Q2) as [(? & ?)|(? & ?)]; apply C_edge_same; auto; cbn; f_equal; lia.
Qed.
Lemma jk_differ q : In q C -> let '(_, (i, j, k)) := q in j <> k.
Proof.
  intros H. pose proof (C_fine q H) as Fq. destruct q as (((a, b), c), ((i, j), k)). pose proof (C_differ _ _ _ _ _ _ H) as D.
  destruct Fq as ((Hp & Hi & Hj & Hk) & _). intros ->. rewrite Hj in Hk. injection Hk as E1 E2. lia.
Qed.

Lemma new_nodup : NoDup (flat_map (four V) C).
Proof.
  apply nodup_flat_map; [apply C_nodup| |intros; eapply four_inj; eassumption].
  intros q H. pose proof (C_fine q H) as Fq. pose proof (jk_differ q H) as J. destruct q as (((a, b), c), ((i, j), k)).
  destruct Fq as (((? & ? & ?) & _) & (Ra & _)). cbn [four]. subst V.
  repeat constructor; cbn [In]; intros Hin; repeat (destruct Hin as [Hin|Hin]; [injection Hin; lia|]); exact Hin.
Qed.
Lemma find_side u v : In (u, v) (directed (snd p)) -> exists c i j k, In ((u, v, c), (i, j, k)) C.
Proof.
  rewrite <- C_first, in_map_iff. intros ((((a, b), c), ((i, j), k)) & Q & H). cbn in Q. injection Q as -> ->. eauto.
Qed.
Lemma new_back u v : In (u, v) (flat_map (four V) C) -> u <> v /\ In (v, u) (flat_map (four V) C).
Proof.
  intros H. apply in_flat_map in H. destruct H as (q & H & Hin). pose proof (C_fine q H) as Fq. pose proof (jk_differ q H) as J.
  destruct q as (((a, b), c), ((i, j), k)). destruct (C_sides _ _ _ _ _ _ H) as (S1 & S2 & S3). destruct HC as (_ & D).
  destruct Fq as (((P1 & P2 & P3) & Hi & Hj & Hk) & (Ra & _)).
  cbn [four In] in Hin. destruct Hin as [Q|[Q|[Q|[Q|[]]]]]; injection Q as <- <-; (split; [subst V; lia|]).
  - destruct (D _ _ S1) as (_ & S'). destruct (find_side _ _ S') as (c1 & i1 & j1 & k1 & HX).
    apply in_flat_map. eexists. split; [apply C_rot; exact HX|]. apply C_fine in HX. destruct HX as (((? & ? & ?) & _ & _ & Hk1) & _).
    assert (k1 = k) by (eapply E_inj; [| |exact Hk1|rewrite low_high_swap; exact Hk]; lia). subst k1. cbn. auto.
  - apply in_flat_map. eexists. split; [exact H|]. cbn. auto.
  - destruct (D _ _ S3) as (_ & S'). destruct (find_side _ _ S') as (c1 & i1 & j1 & k1 & HX).
    apply in_flat_map. eexists. split; [exact HX|]. apply C_fine in HX. destruct HX as (((? & ? & ?) & _ & _ & Hk1) & _).
    assert (k1 = j) by (eapply E_inj; [| |exact Hk1|rewrite low_high_swap; exact Hj]; lia). subst k1. cbn. auto.
  - apply in_flat_map. eexists. split; [exact H|]. cbn. auto.
Qed.
End Closed.

Lemma closed_perm (d d' : list (Z * Z)) : Permutation d d' -> NoDup d' /\ (forall u v, In (u, v) d' -> u <> v /\ In (v, u) d') ->
  NoDup d /\ (forall u v, In (u, v) d -> u <> v /\ In (v, u) d).
Proof.
  intros P (N & B). split; [eapply Permutation_NoDup; [symmetry; exact P|exact N]|].
  intros u v H. apply (Permutation_in _ P) in H. destruct (B _ _ H) as (H1 & H2). split; [exact H1|]. apply (Permutation_in _ (Permutation_sym P)). exact H2.
Qed.
Theorem subdivided_closed p E p' : good_mesh p -> subdivided p E p' -> closed_surface (snd p) -> one_sided (snd p) -> closed_surface (snd p').
Proof.
  intros G (HE & _ & t & HF & Hs) HC HO. cbn zeta in Hs. unfold closed_surface. rewrite Hs.
  eapply closed_perm; [apply directed_new|]. split; [eapply new_nodup; eassumption|]. intros u v. eapply new_back; eassumption.
Qed.
