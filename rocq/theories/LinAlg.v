(* Small dense matrices over the reals: the torch primitives (matmul, transpose, inverse)
   that pytorch3d/transforms and pytorch3d/renderer/cameras.py apply to 3x3 and 4x4
   matrices. Points are row vectors, as in /repo/pytorch3d/transforms/transform3d.py:53-98. *)
From Verif Require Import Base RBase Geom.
Local Open Scope R_scope.

Record mat3 := M3 {
  m00 : R; m01 : R; m02 : R;
  m10 : R; m11 : R; m12 : R;
  m20 : R; m21 : R; m22 : R }.

Definition id3 : mat3 := M3 1 0 0 0 1 0 0 0 1.
(* torch.bmm / torch.matmul on 3x3 blocks *)
Definition mul3 (a b : mat3) : mat3 :=
  M3 (m00 a * m00 b + m01 a * m10 b + m02 a * m20 b)
     (m00 a * m01 b + m01 a * m11 b + m02 a * m21 b)
     (m00 a * m02 b + m01 a * m12 b + m02 a * m22 b)
     (m10 a * m00 b + m11 a * m10 b + m12 a * m20 b)
     (m10 a * m01 b + m11 a * m11 b + m12 a * m21 b)
     (m10 a * m02 b + m11 a * m12 b + m12 a * m22 b)
     (m20 a * m00 b + m21 a * m10 b + m22 a * m20 b)
     (m20 a * m01 b + m21 a * m11 b + m22 a * m21 b)
     (m20 a * m02 b + m21 a * m12 b + m22 a * m22 b).
Definition madd3 (a b : mat3) : mat3 :=
  M3 (m00 a + m00 b) (m01 a + m01 b) (m02 a + m02 b)
     (m10 a + m10 b) (m11 a + m11 b) (m12 a + m12 b)
     (m20 a + m20 b) (m21 a + m21 b) (m22 a + m22 b).
Definition mscal3 (c : R) (a : mat3) : mat3 :=
  M3 (c * m00 a) (c * m01 a) (c * m02 a)
     (c * m10 a) (c * m11 a) (c * m12 a)
     (c * m20 a) (c * m21 a) (c * m22 a).
Definition tr3 (a : mat3) : mat3 :=
  M3 (m00 a) (m10 a) (m20 a) (m01 a) (m11 a) (m21 a) (m02 a) (m12 a) (m22 a).
Definition det3 (a : mat3) : R :=
  m00 a * (m11 a * m22 a - m12 a * m21 a)
  - m01 a * (m10 a * m22 a - m12 a * m20 a)
  + m02 a * (m10 a * m21 a - m11 a * m20 a).
Definition adj3 (a : mat3) : mat3 :=
  M3 (m11 a * m22 a - m12 a * m21 a) (m02 a * m21 a - m01 a * m22 a)
     (m01 a * m12 a - m02 a * m11 a)
     (m12 a * m20 a - m10 a * m22 a) (m00 a * m22 a - m02 a * m20 a)
     (m02 a * m10 a - m00 a * m12 a)
     (m10 a * m21 a - m11 a * m20 a) (m01 a * m20 a - m00 a * m21 a)
     (m00 a * m11 a - m01 a * m10 a).
(* torch.inverse: the exact inverse; raises on a singular matrix *)
Definition inv3 (a : mat3) : result mat3 :=
  if Reqb (det3 a) 0 then Fail ERuntime else Ok (mscal3 (/ det3 a) (adj3 a)).
(* row vector times matrix *)
Definition vmul3 (v : vec3) (a : mat3) : vec3 :=
  V3 (x3 v * m00 a + y3 v * m10 a + z3 v * m20 a)
     (x3 v * m01 a + y3 v * m11 a + z3 v * m21 a)
     (x3 v * m02 a + y3 v * m12 a + z3 v * m22 a).
(* matrix times column vector *)
Definition mulv3 (a : mat3) (v : vec3) : vec3 := vmul3 v (tr3 a).
Definition trace3 (a : mat3) : R := m00 a + m11 a + m22 a.

Record vec4 := V4 { x4 : R; y4 : R; z4 : R; w4 : R }.
Record mat4 := M4 {
  n00 : R; n01 : R; n02 : R; n03 : R;
  n10 : R; n11 : R; n12 : R; n13 : R;
  n20 : R; n21 : R; n22 : R; n23 : R;
  n30 : R; n31 : R; n32 : R; n33 : R }.
Definition id4 : mat4 := M4 1 0 0 0 0 1 0 0 0 0 1 0 0 0 0 1.
Definition mul4 (a b : mat4) : mat4 :=
  M4 (n00 a * n00 b + n01 a * n10 b + n02 a * n20 b + n03 a * n30 b)
     (n00 a * n01 b + n01 a * n11 b + n02 a * n21 b + n03 a * n31 b)
     (n00 a * n02 b + n01 a * n12 b + n02 a * n22 b + n03 a * n32 b)
     (n00 a * n03 b + n01 a * n13 b + n02 a * n23 b + n03 a * n33 b)
     (n10 a * n00 b + n11 a * n10 b + n12 a * n20 b + n13 a * n30 b)
     (n10 a * n01 b + n11 a * n11 b + n12 a * n21 b + n13 a * n31 b)
     (n10 a * n02 b + n11 a * n12 b + n12 a * n22 b + n13 a * n32 b)
     (n10 a * n03 b + n11 a * n13 b + n12 a * n23 b + n13 a * n33 b)
     (n20 a * n00 b + n21 a * n10 b + n22 a * n20 b + n23 a * n30 b)
     (n20 a * n01 b + n21 a * n11 b + n22 a * n21 b + n23 a * n31 b)
     (n20 a * n02 b + n21 a * n12 b + n22 a * n22 b + n23 a * n32 b)
     (n20 a * n03 b + n21 a * n13 b + n22 a * n23 b + n23 a * n33 b)
     (n30 a * n00 b + n31 a * n10 b + n32 a * n20 b + n33 a * n30 b)
     (n30 a * n01 b + n31 a * n11 b + n32 a * n21 b + n33 a * n31 b)
     (n30 a * n02 b + n31 a * n12 b + n32 a * n22 b + n33 a * n32 b)
     (n30 a * n03 b + n31 a * n13 b + n32 a * n23 b + n33 a * n33 b).
Definition mscal4 (c : R) (a : mat4) : mat4 :=
  M4 (c * n00 a) (c * n01 a) (c * n02 a) (c * n03 a)
     (c * n10 a) (c * n11 a) (c * n12 a) (c * n13 a)
     (c * n20 a) (c * n21 a) (c * n22 a) (c * n23 a)
     (c * n30 a) (c * n31 a) (c * n32 a) (c * n33 a).
Definition tr4 (a : mat4) : mat4 :=
  M4 (n00 a) (n10 a) (n20 a) (n30 a) (n01 a) (n11 a) (n21 a) (n31 a)
     (n02 a) (n12 a) (n22 a) (n32 a) (n03 a) (n13 a) (n23 a) (n33 a).
Definition vmul4 (v : vec4) (a : mat4) : vec4 :=
  V4 (x4 v * n00 a + y4 v * n10 a + z4 v * n20 a + w4 v * n30 a)
     (x4 v * n01 a + y4 v * n11 a + z4 v * n21 a + w4 v * n31 a)
     (x4 v * n02 a + y4 v * n12 a + z4 v * n22 a + w4 v * n32 a)
     (x4 v * n03 a + y4 v * n13 a + z4 v * n23 a + w4 v * n33 a).
Definition block3 (a : mat4) : mat3 :=
  M3 (n00 a) (n01 a) (n02 a) (n10 a) (n11 a) (n12 a) (n20 a) (n21 a) (n22 a).

(* adjugate of a 4x4 matrix: transposed 3x3 cofactors *)
Definition adj4 (a : mat4) : mat4 :=
  M4 (det3 (M3 (n11 a) (n12 a) (n13 a) (n21 a) (n22 a) (n23 a) (n31 a) (n32 a) (n33 a)))
     (- det3 (M3 (n01 a) (n02 a) (n03 a) (n21 a) (n22 a) (n23 a) (n31 a) (n32 a) (n33 a)))
     (det3 (M3 (n01 a) (n02 a) (n03 a) (n11 a) (n12 a) (n13 a) (n31 a) (n32 a) (n33 a)))
     (- det3 (M3 (n01 a) (n02 a) (n03 a) (n11 a) (n12 a) (n13 a) (n21 a) (n22 a) (n23 a)))
     (- det3 (M3 (n10 a) (n12 a) (n13 a) (n20 a) (n22 a) (n23 a) (n30 a) (n32 a) (n33 a)))
     (det3 (M3 (n00 a) (n02 a) (n03 a) (n20 a) (n22 a) (n23 a) (n30 a) (n32 a) (n33 a)))
     (- det3 (M3 (n00 a) (n02 a) (n03 a) (n10 a) (n12 a) (n13 a) (n30 a) (n32 a) (n33 a)))
     (det3 (M3 (n00 a) (n02 a) (n03 a) (n10 a) (n12 a) (n13 a) (n20 a) (n22 a) (n23 a)))
     (det3 (M3 (n10 a) (n11 a) (n13 a) (n20 a) (n21 a) (n23 a) (n30 a) (n31 a) (n33 a)))
     (- det3 (M3 (n00 a) (n01 a) (n03 a) (n20 a) (n21 a) (n23 a) (n30 a) (n31 a) (n33 a)))
     (det3 (M3 (n00 a) (n01 a) (n03 a) (n10 a) (n11 a) (n13 a) (n30 a) (n31 a) (n33 a)))
     (- det3 (M3 (n00 a) (n01 a) (n03 a) (n10 a) (n11 a) (n13 a) (n20 a) (n21 a) (n23 a)))
     (- det3 (M3 (n10 a) (n11 a) (n12 a) (n20 a) (n21 a) (n22 a) (n30 a) (n31 a) (n32 a)))
     (det3 (M3 (n00 a) (n01 a) (n02 a) (n20 a) (n21 a) (n22 a) (n30 a) (n31 a) (n32 a)))
     (- det3 (M3 (n00 a) (n01 a) (n02 a) (n10 a) (n11 a) (n12 a) (n30 a) (n31 a) (n32 a)))
     (det3 (M3 (n00 a) (n01 a) (n02 a) (n10 a) (n11 a) (n12 a) (n20 a) (n21 a) (n22 a))).
Definition det4 (a : mat4) : R :=
  n00 a * n00 (adj4 a) + n01 a * n10 (adj4 a) + n02 a * n20 (adj4 a) + n03 a * n30 (adj4 a).
(* torch.inverse *)
Definition inv4 (a : mat4) : result mat4 :=
  if Reqb (det4 a) 0 then Fail ERuntime else Ok (mscal4 (/ det4 a) (adj4 a)).

(* ---- algebra ---- *)
Ltac m3 := repeat match goal with a : mat3 |- _ => destruct a end;
           repeat match goal with a : vec3 |- _ => destruct a end.
Ltac m4 := repeat match goal with a : mat4 |- _ => destruct a end;
           repeat match goal with a : vec4 |- _ => destruct a end.
Ltac m3r := m3; unfold mulv3, mul3, madd3, mscal3, tr3, id3, vmul3, adj3, det3, dot3, cross3, sub3, add3, scal3, trace3;
  cbn [m00 m01 m02 m10 m11 m12 m20 m21 m22 x3 y3 z3].
Ltac m4r := m4; unfold mul4, mscal4, tr4, id4, vmul4, block3;
  cbn [n00 n01 n02 n03 n10 n11 n12 n13 n20 n21 n22 n23 n30 n31 n32 n33 x4 y4 z4 w4].

Lemma M3_eq : forall a b c d e f g h i a' b' c' d' e' f' g' h' i',
  a = a' -> b = b' -> c = c' -> d = d' -> e = e' -> f = f' -> g = g' -> h = h' -> i = i' ->
  M3 a b c d e f g h i = M3 a' b' c' d' e' f' g' h' i'.
Proof. intros; subst; reflexivity. Qed.
Lemma V3_eq : forall a b c a' b' c', a = a' -> b = b' -> c = c' -> V3 a b c = V3 a' b' c'.
Proof. intros; subst; reflexivity. Qed.
Lemma V4_eq : forall a b c d a' b' c' d',
  a = a' -> b = b' -> c = c' -> d = d' -> V4 a b c d = V4 a' b' c' d'.
Proof. intros; subst; reflexivity. Qed.
Lemma M4_eq : forall a b c d e f g h i j k l m n o p a' b' c' d' e' f' g' h' i' j' k' l' m' n' o' p',
  a = a' -> b = b' -> c = c' -> d = d' -> e = e' -> f = f' -> g = g' -> h = h' ->
  i = i' -> j = j' -> k = k' -> l = l' -> m = m' -> n = n' -> o = o' -> p = p' ->
  M4 a b c d e f g h i j k l m n o p = M4 a' b' c' d' e' f' g' h' i' j' k' l' m' n' o' p'.
Proof. intros; subst; reflexivity. Qed.

Lemma mul3_assoc a b c : mul3 (mul3 a b) c = mul3 a (mul3 b c).
Proof. m3r. apply M3_eq; ring. Qed.
Lemma mul3_1_l a : mul3 id3 a = a.
Proof. m3r. apply M3_eq; ring. Qed.
Lemma mul3_1_r a : mul3 a id3 = a.
Proof. m3r. apply M3_eq; ring. Qed.
Lemma tr3_mul a b : tr3 (mul3 a b) = mul3 (tr3 b) (tr3 a).
Proof. m3r. apply M3_eq; ring. Qed.
Lemma tr3_tr a : tr3 (tr3 a) = a.
Proof. m3r. reflexivity. Qed.
Lemma tr3_id : tr3 id3 = id3.
Proof. reflexivity. Qed.
Lemma det3_mul a b : det3 (mul3 a b) = det3 a * det3 b.
Proof. m3r. ring. Qed.
Lemma det3_tr a : det3 (tr3 a) = det3 a.
Proof. m3r. ring. Qed.
Lemma det3_id : det3 id3 = 1.
Proof. m3r. ring. Qed.
Lemma adj3_r a : mul3 a (adj3 a) = mscal3 (det3 a) id3.
Proof. m3r. apply M3_eq; ring. Qed.
Lemma adj3_l a : mul3 (adj3 a) a = mscal3 (det3 a) id3.
Proof. m3r. apply M3_eq; ring. Qed.
Lemma vmul3_mul v a b : vmul3 v (mul3 a b) = vmul3 (vmul3 v a) b.
Proof. m3r. apply V3_eq; ring. Qed.
Lemma vmul3_id v : vmul3 v id3 = v.
Proof. m3r. apply V3_eq; ring. Qed.
Lemma mulv3_mul a b v : mulv3 (mul3 a b) v = mulv3 a (mulv3 b v).
Proof. m3r. apply V3_eq; ring. Qed.
Lemma mul3_scal_r c a b : mul3 a (mscal3 c b) = mscal3 c (mul3 a b).
Proof. m3r. apply M3_eq; ring. Qed.
Lemma mul3_scal_l c a b : mul3 (mscal3 c a) b = mscal3 c (mul3 a b).
Proof. m3r. apply M3_eq; ring. Qed.
Lemma inv3_ok a b : inv3 a = Ok b -> det3 a <> 0 /\ mul3 a b = id3 /\ mul3 b a = id3.
Proof.
  unfold inv3. destruct (Reqb_spec (det3 a) 0) as [E|E]; [discriminate|]. intros H; injection H as <-. split; [exact E|].
  rewrite mul3_scal_r, mul3_scal_l, adj3_r, adj3_l.
  assert (X : mscal3 (/ det3 a) (mscal3 (det3 a) id3) = id3).
  { generalize dependent (det3 a). intros d Hd. unfold mscal3, id3.
    cbn [m00 m01 m02 m10 m11 m12 m20 m21 m22]. apply M3_eq; field; exact Hd. }
  split; exact X.
Qed.
Lemma inv3_defined a : det3 a <> 0 -> exists b, inv3 a = Ok b.
Proof.
  intros H. unfold inv3. destruct (Reqb_spec (det3 a) 0) as [E|E]; [contradiction|eexists; reflexivity].
Qed.

Lemma mul4_assoc a b c : mul4 (mul4 a b) c = mul4 a (mul4 b c).
Proof. m4r. apply M4_eq; ring. Qed.
Lemma mul4_1_l a : mul4 id4 a = a.
Proof. m4r. apply M4_eq; ring. Qed.
Lemma mul4_1_r a : mul4 a id4 = a.
Proof. m4r. apply M4_eq; ring. Qed.
Lemma vmul4_mul v a b : vmul4 v (mul4 a b) = vmul4 (vmul4 v a) b.
Proof. m4r. apply V4_eq; ring. Qed.
Lemma vmul4_id v : vmul4 v id4 = v.
Proof. m4r. apply V4_eq; ring. Qed.
Lemma mul4_scal_r c a b : mul4 a (mscal4 c b) = mscal4 c (mul4 a b).
Proof. m4r. apply M4_eq; ring. Qed.
Lemma mul4_scal_l c a b : mul4 (mscal4 c a) b = mscal4 c (mul4 a b).
Proof. m4r. apply M4_eq; ring. Qed.
Ltac m4d := m4; unfold det4, adj4, mul4, mscal4, tr4, id4, det3;
  cbn [n00 n01 n02 n03 n10 n11 n12 n13 n20 n21 n22 n23 n30 n31 n32 n33
       m00 m01 m02 m10 m11 m12 m20 m21 m22].
Lemma adj4_r a : mul4 a (adj4 a) = mscal4 (det4 a) id4.
Proof. m4d. apply M4_eq; ring. Qed.
Lemma adj4_l a : mul4 (adj4 a) a = mscal4 (det4 a) id4.
Proof. m4d. apply M4_eq; ring. Qed.
Lemma det4_id : det4 id4 = 1.
Proof. m4d. ring. Qed.
Lemma det4_mul a b : det4 (mul4 a b) = det4 a * det4 b.
Proof. m4d. ring. Qed.
Lemma inv4_ok a b : inv4 a = Ok b -> det4 a <> 0 /\ mul4 a b = id4 /\ mul4 b a = id4.
Proof.
  unfold inv4. destruct (Reqb_spec (det4 a) 0) as [E|E]; [discriminate|]. intros H; injection H as <-. split; [exact E|].
  rewrite mul4_scal_r, mul4_scal_l, adj4_r, adj4_l.
  assert (X : mscal4 (/ det4 a) (mscal4 (det4 a) id4) = id4).
  { generalize dependent (det4 a). intros d Hd. unfold mscal4, id4.
    cbn [n00 n01 n02 n03 n10 n11 n12 n13 n20 n21 n22 n23 n30 n31 n32 n33].
    apply M4_eq; field; exact Hd. }
  split; exact X.
Qed.
Lemma inv4_defined a : det4 a <> 0 -> exists b, inv4 a = Ok b.
Proof.
  intros H. unfold inv4. destruct (Reqb_spec (det4 a) 0) as [E|E]; [contradiction|eexists; reflexivity].
Qed.
Lemma mul4_left_det a b : mul4 a b = id4 -> det4 a <> 0.
Proof.
  intros H E. assert (det4 (mul4 a b) = 1) by (rewrite H; apply det4_id).
  rewrite det4_mul, E in H0. lra.
Qed.
Lemma inv4_unique a b c : mul4 a b = id4 -> mul4 c a = id4 -> b = c.
Proof.
  intros H1 H2. rewrite <- (mul4_1_l b), <- H2, mul4_assoc, H1. apply mul4_1_r.
Qed.
Lemma mul4_inv_comm a b : mul4 a b = id4 -> mul4 b a = id4.
Proof.
  intros H. destruct (inv4_defined a (mul4_left_det _ _ H)) as [c Hc].
  apply inv4_ok in Hc. destruct Hc as (_ & H1 & H2).
  rewrite (inv4_unique _ _ _ H H2). exact H2.
Qed.
Lemma inv4_eq a b : mul4 a b = id4 -> inv4 a = Ok b.
Proof.
  intros H. destruct (inv4_defined a (mul4_left_det _ _ H)) as [c Hc].
  rewrite Hc. apply inv4_ok in Hc. destruct Hc as (_ & H1 & H2).
  rewrite (inv4_unique _ _ _ H H2). reflexivity.
Qed.
Lemma mul3_left_det a b : mul3 a b = id3 -> det3 a <> 0.
Proof.
  intros H E. assert (det3 (mul3 a b) = 1) by (rewrite H; apply det3_id).
  rewrite det3_mul, E in H0. lra.
Qed.
Lemma inv3_unique a b c : mul3 a b = id3 -> mul3 c a = id3 -> b = c.
Proof.
  intros H1 H2. rewrite <- (mul3_1_l b), <- H2, mul3_assoc, H1. apply mul3_1_r.
Qed.
Lemma mul3_inv_comm a b : mul3 a b = id3 -> mul3 b a = id3.
Proof.
  intros H. destruct (inv3_defined a (mul3_left_det _ _ H)) as [c Hc].
  apply inv3_ok in Hc. destruct Hc as (_ & H1 & H2).
  rewrite (inv3_unique _ _ _ H H2). exact H2.
Qed.
Lemma inv3_eq a b : mul3 a b = id3 -> inv3 a = Ok b.
Proof.
  intros H. destruct (inv3_defined a (mul3_left_det _ _ H)) as [c Hc].
  rewrite Hc. apply inv3_ok in Hc. destruct Hc as (_ & H1 & H2).
  rewrite (inv3_unique _ _ _ H H2). reflexivity.
Qed.
Lemma dot3_vmul v w a : dot3 (vmul3 v a) w = dot3 v (vmul3 w (tr3 a)).
Proof. m3r. ring. Qed.
