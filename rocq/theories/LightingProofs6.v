(* Gouraud shading: the vertices of a batch are packed and each takes the properties of its mesh. *)
From Coq Require Import Lra.
From Verif Require Import Base RBase Geom LinAlg Tens Lighting LightingSpec LightingProofs LightingProofs2 LightingProofs3 LightingProofs4 LightingProofs5.
Local Open Scope R_scope.

Section Owner.
  Variables (n : nat) (owner : list nat).
  Hypothesis Hn : (0 < n)%nat.
  Hypothesis Ho : List.Forall (fun i => (i < n)%nat) owner.
  Let own (v : nat) : nat := nth v owner 0%nat.
  Lemma own_lt v : (v < length owner)%nat -> (own v < n)%nat.
  Proof. intros H. rewrite Forall_forall in Ho. apply Ho, nth_In, H. Qed.
  Lemma one_own : n = 1%nat -> forall v, (v < length owner)%nat -> own v = 0%nat.
  Proof. intros E v H. pose proof (own_lt v H). lia. Qed.
  Lemma owners_ok d : (n <= d)%nat -> forallb (fun i => i <? d)%nat owner = true.
  Proof. intros L. apply forallb_forall. rewrite Forall_forall in Ho. intros x Hx. apply Nat.ltb_lt. specialize (Ho x Hx). lia. Qed.
  Lemma gather_prop3 t f : (1 < n)%nat -> prop3 t n f -> exists t', gather_prop owner t = Ok t' /\ prop3 t' (length owner) (fun v => f (own v)).
  Proof.
    intros H1 [(S & H)|(S & H)]; unfold gather_prop; rewrite S.
    - replace (1 <? n)%nat with true by (symmetry; apply Nat.ltb_lt; exact H1). rewrite owners_ok by lia.
      eexists. split; [reflexivity|]. left. split; [reflexivity|]. intros v Hv. rewrite <- (H _ (own_lt v Hv)). reflexivity.
    - cbn [Nat.ltb Nat.leb]. exists t. split; [reflexivity|]. right. split; [exact S|]. intros v Hv. rewrite (H _ (own_lt v Hv)). reflexivity.
  Qed.
  Lemma gather_prop1 t f : (1 < n)%nat -> prop1 t n f -> exists t', gather_prop owner t = Ok t' /\ prop1 t' (length owner) (fun v => f (own v)).
  Proof.
    intros H1 [(S & H)|(S & H)]; unfold gather_prop; rewrite S.
    - replace (1 <? n)%nat with true by (symmetry; apply Nat.ltb_lt; exact H1). rewrite owners_ok by lia.
      eexists. split; [reflexivity|]. left. split; [reflexivity|]. intros v Hv. rewrite <- (H _ (own_lt v Hv)). reflexivity.
    - cbn [Nat.ltb Nat.leb]. exists t. split; [reflexivity|]. right. split; [exact S|]. intros v Hv. rewrite (H _ (own_lt v Hv)). reflexivity.
  Qed.
  Lemma single_prop3 t f : n = 1%nat -> prop3 t n f -> prop3 t (length owner) (fun v => f (own v)).
  Proof.
    intros E [(S & H)|(S & H)]; right; rewrite ?E in S; (split; [exact S|]); intros v Hv; rewrite (one_own E v Hv); apply H; exact Hn.
  Qed.
  Lemma single_prop1 t f : n = 1%nat -> prop1 t n f -> prop1 t (length owner) (fun v => f (own v)).
  Proof.
    intros E [(S & H)|(S & H)]; right; rewrite ?E in S; (split; [exact S|]); intros v Hv; rewrite (one_own E v Hv); apply H; exact Hn.
  Qed.
  Lemma gather_state l m cam la ld ls tw ma md ms s C : lamp l n la ld ls tw -> material m n ma md ms s -> prop3 cam n C ->
    exists l' c' m',
      (if (1 <? n)%nat
       then l <- gather_lights owner l ;; c <- gather_prop owner cam ;; m <- gather_materials owner m ;; Ok (l, c, m)
       else Ok (l, cam, m)) = Ok (l', c', m') /\
      lamp l' (length owner) (fun v => la (own v)) (fun v => ld (own v)) (fun v => ls (own v)) (fun v p => tw (own v) p) /\
      material m' (length owner) (fun v => ma (own v)) (fun v => md (own v)) (fun v => ms (own v)) (fun v => s (own v)) /\
      prop3 c' (length owner) (fun v => C (own v)).
  Proof.
    intros HL (MA & MD & MS & ME) HC. destruct (Nat.ltb_spec 1 n) as [H1|H1].
    - assert (G : exists l', gather_lights owner l = Ok l' /\ lamp l' (length owner) (fun v => la (own v)) (fun v => ld (own v)) (fun v => ls (own v)) (fun v p => tw (own v) p)).
      { destruct l as [a d sp v|a d sp x|a]; cbn [lamp gather_lights] in *.
        - destruct HL as (A & D & S & dir & V & E).
          destruct (gather_prop3 _ _ H1 A) as (? & -> & A'). destruct (gather_prop3 _ _ H1 D) as (? & -> & D').
          destruct (gather_prop3 _ _ H1 S) as (? & -> & S'). destruct (gather_prop3 _ _ H1 V) as (? & -> & V'). cbn [rbind].
          eexists. split; [reflexivity|]. cbn [lamp]. split; [exact A'|]. split; [exact D'|]. split; [exact S'|]. eexists. split; [exact V'|]. intros i p. apply E.
        - destruct HL as (A & D & S & dir & V & E).
          destruct (gather_prop3 _ _ H1 A) as (? & -> & A'). destruct (gather_prop3 _ _ H1 D) as (? & -> & D').
          destruct (gather_prop3 _ _ H1 S) as (? & -> & S'). destruct (gather_prop3 _ _ H1 V) as (? & -> & V'). cbn [rbind].
          eexists. split; [reflexivity|]. cbn [lamp]. split; [exact A'|]. split; [exact D'|]. split; [exact S'|]. eexists. split; [exact V'|]. intros i p. apply E.
        - destruct HL as (A & D & S). destruct (gather_prop3 _ _ H1 A) as (? & -> & A'). cbn [rbind].
          eexists. split; [reflexivity|]. cbn [lamp]. split; [exact A'|]. split; intros i; [apply D|apply S]. }
      destruct G as (l' & -> & GL). cbn [rbind]. destruct (gather_prop3 _ _ H1 HC) as (c' & -> & GC). cbn [rbind]. unfold gather_materials.
      destruct (gather_prop3 _ _ H1 MA) as (? & -> & A'). destruct (gather_prop3 _ _ H1 MD) as (? & -> & D').
      destruct (gather_prop3 _ _ H1 MS) as (? & -> & S'). destruct (gather_prop1 _ _ H1 ME) as (? & -> & E'). cbn [rbind].
      eexists. eexists. eexists. split; [reflexivity|]. split; [exact GL|]. split; [|exact GC]. split; [exact A'|]. split; [exact D'|]. split; [exact S'|exact E'].
    - assert (E1 : n = 1%nat) by lia. exists l, cam, m. split; [reflexivity|]. split; [|split].
      + destruct l as [a d sp v|a d sp x|a]; cbn [lamp] in *.
        * destruct HL as (A & D & S & dir & V & E). do 3 (split; [apply single_prop3; assumption|]). exists (fun v => dir (own v)). split; [apply single_prop3; assumption|]. intros i p. apply E.
        * destruct HL as (A & D & S & dir & V & E). do 3 (split; [apply single_prop3; assumption|]). exists (fun v => dir (own v)). split; [apply single_prop3; assumption|]. intros i p. apply E.
        * destruct HL as (A & D & S). split; [apply single_prop3; assumption|]. split; intros i; [apply D|apply S].
      + split; [apply single_prop3; assumption|]. split; [apply single_prop3; assumption|]. split; [apply single_prop3; assumption|]. apply single_prop1; assumption.
      + apply single_prop3; assumption.
  Qed.
End Owner.

(* packed tensors after squeeze() *)
Definition flatp (t : tensor) (nv : nat) (f : nat -> vec3) : Prop :=
  (shp t = [nv; 3%nat] /\ forall i, (i < nv)%nat -> row t [i] = f i) \/
  (shp t = [3%nat] /\ forall i, (i < nv)%nat -> row t [] = f i).
Lemma squeeze_prop t nv f : prop3 t nv f -> flatp (squeeze t) nv f.
Proof.
  intros HP. destruct (prop3_get _ _ _ HP) as (q & Hq & S & G). unfold squeeze. rewrite S.
  destruct (Nat.eq_dec q 1) as [->|N].
  - right. split; [reflexivity|]. intros i Hi. rewrite <- (G i Hi). reflexivity.
  - destruct Hq as [->|?]; [|contradiction]. left. cbn [filter unsqueeze_at shp]. destruct (Nat.eqb_spec nv 1); [contradiction|]. cbn [negb Nat.eqb filter].
    split; [reflexivity|]. intros i Hi. rewrite <- (G i Hi), pk_lt by exact Hi. unfold row. cbn [get app unsqueeze_at].
    destruct (Nat.eqb_spec nv 1); [contradiction|]. reflexivity.
Qed.
Lemma vecs_prop t nv f : vecs t nv [] (fun i _ => f i) <-> (shp t = [nv; 3%nat] /\ forall i, (i < nv)%nat -> row t [i] = f i).
Proof.
  split; intros (S & H); (split; [exact S|]).
  - intros i Hi. apply (H i [] Hi). constructor.
  - intros i js Hi J. inversion J; subst. apply H, Hi.
Qed.
Lemma bop_props op a b nv f g : prop3 a nv f -> prop3 b nv g -> exists r, bop op a b = Ok r /\ prop3 r nv (fun i => map3 op (f i) (g i)).
Proof.
  intros PA PB. destruct (prop3_get _ _ _ PA) as (p & Hp & SA & GA). destruct (prop3_get _ _ _ PB) as (q & Hq & SB & GB).
  assert (ZZ : exists m, (m = nv \/ m = 1)%nat /\ zipdims (shp a) (shp b) = Ok [m; 3%nat] /\ forall i, (i < m)%nat -> (i < nv)%nat -> (pk p i = pk p i /\ True)).
  { rewrite SA, SB. destruct Hp as [->| ->].
    - exists nv. split; [left; reflexivity|]. split; [|intros; split; trivial].
      change [nv; 3%nat] with ([nv] ++ [3%nat]). change [q; 3%nat] with ([q] ++ [3%nat]). apply zip_app; [|reflexivity].
      destruct Hq as [->| ->]; [apply zip_same|]. rewrite zip_comm. apply (zip_ones [nv]).
    - exists q. split; [exact Hq|]. split; [|intros; split; trivial]. change [1; 3]%nat with ([1%nat] ++ [3%nat]). change [q; 3%nat] with ([q] ++ [3%nat]).
      apply zip_app; [apply (zip_ones [q])|reflexivity]. }
  destruct ZZ as (m & Hm & Z & _). rewrite (bop_zip _ _ _ _ Z). eexists. split; [reflexivity|].
  assert (V : forall j, row (T [m; 3%nat] (fun idx => op (get a (pick (shp a) idx)) (get b (pick (shp b) idx)))) [j] = map3 op (row a [pk p j]) (row b [pk q j])).
  { intros j. unfold row, map3. cbn [get app x3 y3 z3]. rewrite SA, SB. reflexivity. }
  destruct Hm as [->| ->].
  - left. split; [reflexivity|]. intros i Hi. rewrite V, GA, GB by exact Hi. reflexivity.
  - right. split; [reflexivity|]. intros i Hi. rewrite V, <- GA, <- GB by exact Hi.
    (* both batch sizes are 1, or there is a single vertex *)
    assert (P : pk p 0 = pk p i /\ pk q 0 = pk q i).
    { unfold pk. destruct (zip_length _ _ _ Z) as [_ _]. rewrite SA, SB in Z. cbn [zipdims rbind] in Z. change (3 =? 3)%nat with true in Z. cbn [rbind] in Z.
      destruct (Nat.eqb_spec p 1), (Nat.eqb_spec q 1); subst; try (split; reflexivity).
      - cbn [rbind] in Z. destruct (Nat.eqb_spec 1 q); [lia|]. injection Z as Z. lia.
      - destruct (Nat.eqb_spec p 1); [lia|]. cbn [Nat.eqb] in Z. injection Z as Z. lia.
      - destruct (Nat.eqb_spec p q); [injection Z as Z; lia|discriminate]. }
    destruct P as [-> ->]. reflexivity.
Qed.
Lemma bop_flat op a b nv f g : (0 < nv)%nat -> flatp a nv f -> flatp b nv g -> exists r, bop op a b = Ok r /\ flatp r nv (fun i => map3 op (f i) (g i)) /\
  (shp a = [nv; 3%nat] -> shp r = [nv; 3%nat]).
Proof.
  intros Hv [(SA & HA)|(SA & HA)] [(SB & HB)|(SB & HB)].
  - assert (Z : zipdims (shp a) (shp b) = Ok [nv; 3%nat]) by (rewrite SA, SB; apply zip_same).
    rewrite (bop_zip _ _ _ _ Z). eexists. split; [reflexivity|]. split; [|reflexivity]. left. split; [reflexivity|]. intros i Hi.
    rewrite <- (HA i Hi), <- (HB i Hi). unfold row, map3. cbn [get app x3 y3 z3]. rewrite SA, SB. cbn [pick length Nat.sub skipn combine map fst snd Nat.eqb].
    replace (if (nv =? 1)%nat then 0%nat else i) with i by (destruct (Nat.eqb_spec nv 1); lia). reflexivity.
  - unfold bop, bshape, left_pad. rewrite SA, SB. cbn [length Nat.max Nat.sub repeat app].
    assert (Z : zipdims [nv; 3]%nat [1; 3]%nat = Ok [nv; 3%nat]).
    { rewrite zip_comm. change [1; 3]%nat with ([1%nat] ++ [3%nat]). change [nv; 3%nat] with ([nv] ++ [3%nat]). apply zip_app; [apply (zip_ones [nv])|reflexivity]. }
    rewrite Z. cbn [rbind]. eexists. split; [reflexivity|]. split; [|reflexivity]. left. split; [reflexivity|]. intros i Hi.
    rewrite <- (HA i Hi), <- (HB i Hi). unfold row, map3. cbn [get app x3 y3 z3]. cbn [pick length Nat.sub skipn combine map fst snd Nat.eqb].
    replace (if (nv =? 1)%nat then 0%nat else i) with i by (destruct (Nat.eqb_spec nv 1); lia). reflexivity.
  - unfold bop, bshape, left_pad. rewrite SA, SB. cbn [length Nat.max Nat.sub repeat app].
    assert (Z : zipdims [1; 3]%nat [nv; 3]%nat = Ok [nv; 3%nat]).
    { change [1; 3]%nat with ([1%nat] ++ [3%nat]). change [nv; 3%nat] with ([nv] ++ [3%nat]). apply zip_app; [apply (zip_ones [nv])|reflexivity]. }
    rewrite Z. cbn [rbind]. eexists. split; [reflexivity|]. split; [|reflexivity]. left. split; [reflexivity|]. intros i Hi.
    rewrite <- (HA i Hi), <- (HB i Hi). unfold row, map3. cbn [get app x3 y3 z3]. cbn [pick length Nat.sub skipn combine map fst snd Nat.eqb].
    replace (if (nv =? 1)%nat then 0%nat else i) with i by (destruct (Nat.eqb_spec nv 1); lia). reflexivity.
  - assert (Z : zipdims (shp a) (shp b) = Ok [3%nat]) by (rewrite SA, SB; apply zip_same).
    rewrite (bop_zip _ _ _ _ Z). eexists. split; [reflexivity|]. split; [|intros E; rewrite SA in E; discriminate]. right. split; [reflexivity|]. intros i Hi.
    rewrite <- (HA i Hi), <- (HB i Hi). unfold row, map3. cbn [get app x3 y3 z3]. rewrite SA, SB. reflexivity.
Qed.

Lemma gouraud_eval n owner verts vn A VN faces colors X p2f bary B l cam m la ld ls tw ma md ms s C h w k :
  (0 < n)%nat -> List.Forall (fun i => (i < n)%nat) owner -> owner <> [] ->
  vecs verts (length owner) [] (fun v _ => A v) -> vecs vn (length owner) [] (fun v _ => VN v) ->
  vecs colors (length owner) [] (fun v _ => X v) -> faces_ok (length owner) faces ->
  rendered p2f n h w k faces -> vecs bary n [h; w; k] B ->
  lamp l n la ld ls tw -> material m n ma md ms s -> prop3 cam n C ->
  let own v := nth v owner 0%nat in
  exists out, gouraud_shading n owner verts vn faces (Some colors) p2f bary l cam m = Ok out /\
    vecs out n [h; w; k] (seen (fun v => let i := own v in
      add3 (tint (add3 (tint (ma i) (la i)) (tint (md i) (scal3 (lit (VN v) (tw i (A v))) (ld i)))) (X v))
           (tint (ms i) (scal3 (shine (VN v) (tw i (A v)) (sub3 (C i) (A v)) (s i)) (ls i)))) p2f faces B).
Proof.
  intros Hn Ho NE VV VN' VX HF HR VB HL HM HC own. unfold gouraud_shading.
  destruct (gather_state n owner Hn Ho l m cam la ld ls tw ma md ms s C HL HM HC) as (l' & c' & m' & -> & HL' & (MA & MD & MS & ME) & HC'). cbn [rbind].
  set (nv := length owner) in *. assert (Hv : (0 < nv)%nat) by (unfold nv; destruct owner; [contradiction|cbn; lia]).
  fold own in HL', MA, MD, MS, ME, HC'.
  unfold apply_lighting.
  destruct (light_diffuse_eval l' nv _ _ _ _ vn verts [] (fun v _ => VN v) (fun v _ => A v) Hv HL' (or_introl eq_refl) VN' VV) as (dt & -> & VD). cbn [rbind].
  destruct (light_specular_eval l' nv _ _ _ _ vn verts c' _ [] (fun v _ => VN v) (fun v _ => A v) _ _ Hv HL' (or_introl eq_refl) VN' VV HC' ME) as (st & -> & VS). cbn [rbind].
  assert (PA : prop3 (ambient_of l') nv (fun v => la (own v))) by (destruct l'; cbn [lamp ambient_of] in *; apply HL').
  destruct (bop_props Rmult _ _ _ _ _ MA PA) as (at_ & -> & PAT). cbn [rbind].
  apply vecs_prop in VD. apply vecs_prop in VS.
  destruct (bop_props Rmult _ _ _ _ _ MD (or_introl VD)) as (d' & -> & PD). cbn [rbind].
  destruct (bop_props Rmult _ _ _ _ _ MS (or_introl VS)) as (s' & -> & PS). cbn [rbind].
  rewrite (proj1 VN'), (proj1 VV). cbn [length app Nat.eqb andb rbind].
  destruct (bop_flat Rplus _ _ _ _ _ Hv (squeeze_prop _ _ _ PAT) (squeeze_prop _ _ _ PD)) as (x & -> & FX & _). cbn [rbind].
  pose proof VX as VX'. apply vecs_prop in VX'.
  destruct (bop_flat Rmult _ _ _ _ _ Hv (or_introl VX') FX) as (y & -> & FY & SY). specialize (SY (proj1 VX')). cbn [rbind].
  destruct (bop_flat Rplus _ _ _ _ _ Hv FY (squeeze_prop _ _ _ PS)) as (z & -> & FZ & SZ). specialize (SZ SY). cbn [rbind].
  assert (VZ : vecs z nv [] (fun v _ => let i := own v in
      add3 (tint (add3 (tint (ma i) (la i)) (tint (md i) (scal3 (lit (VN v) (tw i (A v))) (ld i)))) (X v))
           (tint (ms i) (scal3 (shine (VN v) (tw i (A v)) (sub3 (C i) (A v)) (s i)) (ls i))))).
  { apply vecs_prop. split; [exact SZ|]. destruct FZ as [(_ & H)|(S3 & _)]; [|rewrite SZ in S3; discriminate].
    intros i Hi. rewrite (H i Hi). unfold own. cbv beta zeta. unfold map3, add3, tint, scal3. cbn [x3 y3 z3]. f_equal; ring. }
  destruct (interpolate_eval p2f bary z nv _ B n h w k faces HR HF VZ VB) as (fa & r & -> & E & VR). cbn [rbind].
  exists r. split; [exact E|exact VR].
Qed.
