(* Every symmetric 3x3 matrix has an orthonormal basis of eigenvectors with ordered eigenvalues,
   and every 3x3 matrix a singular value decomposition: the contracts under which torch.linalg.eigh
   and torch.svd are parameters of the model can be met. *)
From Verif Require Import Base RBase Geom LinAlg Alignment AlignmentSpec AlignmentProofs.
From Coq Require Import Psatz.
Local Open Scope R_scope.

Definition vzero : vec3 := V3 0 0 0.
Definition columns (u v w : vec3) : mat3 := M3 (x3 u) (x3 v) (x3 w) (y3 u) (y3 v) (y3 w) (z3 u) (z3 v) (z3 w).
Definition orthonormal (u v w : vec3) : Prop :=
  dot3 u u = 1 /\ dot3 v v = 1 /\ dot3 w w = 1 /\ dot3 u v = 0 /\ dot3 u w = 0 /\ dot3 v w = 0.
Definition unit_of (v : vec3) : vec3 := scal3 (/ sqrt (dot3 v v)) v.

Lemma dself v : 0 <= dot3 v v.
Proof. unfold dot3. nra. Qed.
Lemma dself0 v : dot3 v v = 0 -> v = vzero.
Proof. destruct v as [x y z]. unfold dot3, vzero. cbn. intros. f_equal; nra. Qed.
Lemma unit_of_unit v : v <> vzero -> dot3 (unit_of v) (unit_of v) = 1.
Proof.
  intros H. assert (P : 0 < dot3 v v) by (destruct (Rle_lt_or_eq_dec _ _ (dself v)) as [|E]; [assumption|symmetry in E; apply dself0 in E; contradiction]).
  pose proof (sqrt_lt_R0 _ P). unfold unit_of.
  replace (dot3 (scal3 (/ sqrt (dot3 v v)) v) (scal3 (/ sqrt (dot3 v v)) v)) with (dot3 v v / (sqrt (dot3 v v) * sqrt (dot3 v v))).
  - rewrite sqrt_sqrt by lra. field. lra.
  - set (s := sqrt (dot3 v v)) in *. clearbody s. m3r. field. lra.
Qed.
Lemma dot_comm u v : dot3 u v = dot3 v u.
Proof. m3r. ring. Qed.
Lemma dot_unit_of u v : dot3 u (unit_of v) = / sqrt (dot3 v v) * dot3 u v.
Proof. unfold unit_of. generalize (/ sqrt (dot3 v v)). intros c. m3r. ring. Qed.
Lemma dot_unit_of' u v : dot3 (unit_of u) v = / sqrt (dot3 u u) * dot3 u v.
Proof. rewrite dot_comm, dot_unit_of, (dot_comm v u). reflexivity. Qed.

Lemma columns_orthogonal u v w : orthonormal u v w -> orthogonal (columns u v w).
Proof.
  intros (A & B & C & D & E & F). rewrite <- (tr3_tr (columns u v w)). apply orthogonal_t. unfold orthogonal. rewrite tr3_tr.
  unfold columns. revert A B C D E F. m3r. intros. apply M3_eq; lra.
Qed.
Lemma orthogonal_columns u v w : orthogonal (columns u v w) -> orthonormal u v w.
Proof.
  intros H. apply orthogonal_tr in H. unfold orthonormal. revert H. unfold columns. m3r. intros H. injection H. intros. repeat split; lra.
Qed.
Lemma columns_mul m u v w : mul3 m (columns u v w) = columns (mulv3 m u) (mulv3 m v) (mulv3 m w).
Proof. unfold columns. m3r. apply M3_eq; ring. Qed.
Lemma columns_diag u v w s : mul3 (columns u v w) (diag s) = columns (scal3 (x3 s) u) (scal3 (y3 s) v) (scal3 (z3 s) w).
Proof. unfold columns, diag. m3r. apply M3_eq; ring. Qed.
Lemma by_columns m u v w u' v' w' s : orthonormal v u w ->
  mulv3 m v = scal3 (x3 s) v' -> mulv3 m u = scal3 (y3 s) u' -> mulv3 m w = scal3 (z3 s) w' ->
  m = mul3 (mul3 (columns v' u' w') (diag s)) (tr3 (columns v u w)).
Proof.
  intros O A B C. rewrite columns_diag, <- A, <- B, <- C, <- columns_mul, mul3_assoc.
  rewrite (columns_orthogonal _ _ _ O : mul3 _ _ = id3). symmetry. apply mul3_1_r.
Qed.
Lemma expand u v w x : orthonormal u v w ->
  x = add3 (add3 (scal3 (dot3 x u) u) (scal3 (dot3 x v) v)) (scal3 (dot3 x w) w).
Proof.
  intros O. pose proof (columns_orthogonal _ _ _ O : mul3 _ _ = id3) as H. rewrite <- (vmul3_id x) at 1. rewrite <- H. unfold columns.
  m3r. apply V3_eq; ring.
Qed.

(* a unit vector in the kernel of a singular matrix *)
Lemma kernel_rows r1 r2 r3 : dot3 (cross3 r1 r2) r3 = 0 ->
  exists v, v <> vzero /\ dot3 r1 v = 0 /\ dot3 r2 v = 0 /\ dot3 r3 v = 0.
Proof.
  intros D.
  assert (Z : forall v : vec3, v = vzero \/ v <> vzero).
  { intros [a b c]. destruct (Req_dec a 0) as [->|]; [|right; let K := fresh in intros K; injection K; contradiction].
    destruct (Req_dec b 0) as [->|]; [|right; let K := fresh in intros K; injection K; contradiction].
    destruct (Req_dec c 0) as [->|]; [left; reflexivity|right; let K := fresh in intros K; injection K; contradiction]. }
  destruct (Z (cross3 r1 r2)) as [E1|N]; [|exists (cross3 r1 r2); split; [exact N|]; revert D; m3r; intros; repeat split; lra].
  destruct (Z (cross3 r1 r3)) as [E2|N]; [|exists (cross3 r1 r3); split; [exact N|]; revert D; m3r; intros; repeat split; lra].
  destruct (Z (cross3 r2 r3)) as [E3|N]; [|exists (cross3 r2 r3); split; [exact N|]; revert D; m3r; intros; repeat split; lra].
  clear D.
  assert (P : forall r, r <> vzero -> exists v, v <> vzero /\ dot3 r v = 0 /\ forall q, cross3 r q = vzero -> dot3 q v = 0).
  { intros r N. destruct r as [a b c]. destruct (Req_dec a 0) as [->|A].
    - exists (V3 1 0 0). split; [intros H; injection H; lra|]. split; [m3r; ring|]. intros [x y z] H. revert H. m3r. unfold vzero. intros H.
      injection H. intros. destruct (Req_dec b 0) as [->|B]; [destruct (Req_dec c 0) as [->|C]; [exfalso; apply N; reflexivity|]|];
      [apply (Rmult_eq_reg_l c); [lra|exact C]|apply (Rmult_eq_reg_l b); [lra|exact B]].
    - exists (V3 (- b) a 0). split; [intros H; injection H; lra|]. split; [m3r; ring|]. intros [x y z] H. revert H. m3r. unfold vzero. intros H.
      injection H. intros. lra. }
  destruct (Z r1) as [->|N1].
  - destruct (Z r2) as [->|N2].
    + destruct (Z r3) as [->|N3].
      * exists (V3 1 0 0). split; [intros H; injection H; lra|]. unfold vzero. m3r. repeat split; ring.
      * destruct (P r3 N3) as (v & V & A & _). exists v. split; [exact V|]. unfold vzero. repeat split; [m3r; ring..|exact A].
    + destruct (P r2 N2) as (v & V & A & B). exists v. split; [exact V|]. split; [unfold vzero; m3r; ring|]. split; [exact A|apply B; exact E3].
  - destruct (P r1 N1) as (v & V & A & B). exists v. split; [exact V|]. split; [exact A|]. split; apply B; assumption.
Qed.
Lemma kernel3 m : det3 m = 0 -> exists v, dot3 v v = 1 /\ mulv3 m v = vzero.
Proof.
  intros D. destruct m as [a b c d e f g h i].
  destruct (kernel_rows (V3 a b c) (V3 d e f) (V3 g h i)) as (v & N & A & B & C).
  { revert D. m3r. intros. lra. }
  exists (unit_of v). split; [apply unit_of_unit, N|].
  unfold unit_of. generalize (/ sqrt (dot3 v v)). intros k. revert A B C. clear. unfold vzero. m3r. intros A B C. apply V3_eq.
  - transitivity (k * (a * x3 + b * y3 + c * z3)); [ring|rewrite A; ring].
  - transitivity (k * (d * x3 + e * y3 + f * z3)); [ring|rewrite B; ring].
  - transitivity (k * (g * x3 + h * y3 + i * z3)); [ring|rewrite C; ring].
Qed.

(* completing one or two unit vectors *)
Lemma complete2 u v : dot3 u u = 1 -> dot3 v v = 1 -> dot3 u v = 0 -> orthonormal u v (cross3 u v).
Proof.
  intros A B C. split; [exact A|]. split; [exact B|]. split; [|split; [exact C|split; m3r; ring]].
  transitivity (dot3 u u * dot3 v v - dot3 u v * dot3 u v); [m3r; ring|rewrite A, B, C; ring].
Qed.
Lemma complete1 w : dot3 w w = 1 -> exists u, dot3 u u = 1 /\ dot3 w u = 0.
Proof.
  intros W. destruct (kernel_rows w vzero vzero) as (v & N & A & _); [unfold vzero; m3r; ring|].
  exists (unit_of v). split; [apply unit_of_unit, N|]. rewrite dot_unit_of, A. ring.
Qed.

(* a real root of the characteristic polynomial *)
Lemma cubic_root a b c : exists x, x * x * x + a * (x * x) + b * x + c = 0.
Proof.
  set (f := fun x => x * x * x + a * (x * x) + b * x + c).
  assert (Cf : continuity f) by (unfold f; reg).
  set (s := 1 + Rabs a + Rabs b + Rabs c).
  pose proof (Rabs_pos a). pose proof (Rabs_pos b). pose proof (Rabs_pos c).
  pose proof (Rle_abs a). pose proof (Rle_abs b). pose proof (Rle_abs c).
  pose proof (Rle_abs (- a)). pose proof (Rle_abs (- b)). pose proof (Rle_abs (- c)). rewrite Rabs_Ropp in *.
  assert (S1 : 1 <= s) by (unfold s; lra).
  assert (D : Rabs a * (s * s) + Rabs b * s + Rabs c <= s * s * s).
  { assert (s <= s * s) by nra. assert (1 <= s * s) by nra.
    assert (Rabs b * s <= Rabs b * (s * s)) by (apply Rmult_le_compat_l; lra).
    assert (Rabs c * 1 <= Rabs c * (s * s)) by (apply Rmult_le_compat_l; lra).
    replace (s * s * s) with ((1 + Rabs a + Rabs b + Rabs c) * (s * s)) by (unfold s; ring). lra. }
  assert (Hp : 0 <= f s).
  { unfold f. assert (- Rabs a * (s * s) <= a * (s * s)) by (apply Rmult_le_compat_r; nra).
    assert (- Rabs b * s <= b * s) by (apply Rmult_le_compat_r; lra). lra. }
  assert (Hm : f (- s) <= 0).
  { unfold f. assert (a * (s * s) <= Rabs a * (s * s)) by (apply Rmult_le_compat_r; nra).
    assert (- b * s <= Rabs b * s) by (apply Rmult_le_compat_r; lra). lra. }
  destruct (IVT_cor f (- s) s Cf) as (z & _ & Z); [lra|nra|]. exists z. exact Z.
Qed.
Definition shifted (a : mat3) (l : R) : mat3 := madd3 a (mscal3 (- l) id3).
Lemma eigen_one a : exists l v, dot3 v v = 1 /\ mulv3 a v = scal3 l v.
Proof.
  destruct (cubic_root (- trace3 a)
    (m00 a * m11 a - m01 a * m10 a + (m00 a * m22 a - m02 a * m20 a) + (m11 a * m22 a - m12 a * m21 a)) (- det3 a)) as (l & L).
  destruct (kernel3 (shifted a l)) as (v & V & K).
  { unfold shifted. revert L. m3r. intros. lra. }
  exists l, v. split; [exact V|]. revert K. unfold shifted, vzero. m3r. intros K. injection K. intros. apply V3_eq; lra.
Qed.

(* a rotation of the plane diagonalises a symmetric 2x2 matrix *)
Lemma plane a b d : exists c s, c * c + s * s = 1 /\ - a * c * s + b * (c * c - s * s) + d * s * c = 0.
Proof.
  destruct (Req_dec b 0) as [->|B]; [exists 1, 0; split; ring|].
  set (D := (a - d) * (a - d) + 4 * (b * b)). assert (Bp : 0 < b * b) by (destruct (Rle_lt_or_eq_dec _ _ (Rle_0_sqr b)) as [Q|Q]; [exact Q|symmetry in Q; apply Rsqr_eq_0 in Q; contradiction]).
  assert (HD : 0 < D) by (unfold D; pose proof (Rle_0_sqr (a - d)) as Q; unfold Rsqr in Q; lra).
  set (m := (a + d + sqrt D) / 2). assert (M : m * m - (a + d) * m + a * d - b * b = 0).
  { pose proof (sqrt_sqrt D ltac:(lra)) as Q. unfold m. replace ((a + d + sqrt D) / 2 * ((a + d + sqrt D) / 2)) with ((sqrt D * sqrt D + 2 * (a + d) * sqrt D + (a + d) * (a + d)) / 4) by field.
    rewrite Q. unfold D. field. }
  set (n := b * b + (m - a) * (m - a)). assert (N : 0 < n) by (unfold n; pose proof (Rle_0_sqr (m - a)) as Q; unfold Rsqr in Q; lra). pose proof (sqrt_lt_R0 _ N) as R. pose proof (sqrt_sqrt n ltac:(lra)) as Q.
  exists (b / sqrt n), ((m - a) / sqrt n). split.
  - replace (b / sqrt n * (b / sqrt n) + (m - a) / sqrt n * ((m - a) / sqrt n)) with (n / (sqrt n * sqrt n)) by (unfold n at 1; field; lra). rewrite Q. field. lra.
  - replace (- a * (b / sqrt n) * ((m - a) / sqrt n) + b * (b / sqrt n * (b / sqrt n) - (m - a) / sqrt n * ((m - a) / sqrt n)) + d * ((m - a) / sqrt n) * (b / sqrt n))
      with (- b * (m * m - (a + d) * m + a * d - b * b) / (sqrt n * sqrt n)) by (field; lra). rewrite M. unfold Rdiv. ring.
Qed.

Definition symmetric (a : mat3) : Prop := tr3 a = a.
Lemma sym_dot a u v : symmetric a -> dot3 (mulv3 a u) v = dot3 u (mulv3 a v).
Proof. unfold symmetric. intros S. unfold mulv3. rewrite dot3_vmul, tr3_tr, S. reflexivity. Qed.
Definition eigens (a : mat3) (e1 e2 e3 : R) (v1 v2 v3 : vec3) : Prop :=
  orthonormal v1 v2 v3 /\ mulv3 a v1 = scal3 e1 v1 /\ mulv3 a v2 = scal3 e2 v2 /\ mulv3 a v3 = scal3 e3 v3.
Lemma spectral a : symmetric a -> exists e1 e2 e3 v1 v2 v3, eigens a e1 e2 e3 v1 v2 v3.
Proof.
  intros S. destruct (eigen_one a) as (l & w & W & Aw). destruct (complete1 w W) as (u & U & WU).
  pose proof (complete2 w u W U WU) as O. set (v := cross3 w u) in *. clearbody v.
  destruct O as (_ & _ & V & _ & WV & UV).
  destruct (plane (dot3 u (mulv3 a u)) (dot3 u (mulv3 a v)) (dot3 v (mulv3 a v))) as (c & s & CS & Hd).
  set (p := add3 (scal3 c u) (scal3 s v)). set (q := add3 (scal3 (- s) u) (scal3 c v)).
  assert (Pp : dot3 p p = 1).
  { transitivity (c * c * dot3 u u + 2 * (c * s) * dot3 u v + s * s * dot3 v v); [unfold p; m3r; ring|rewrite U, V, UV; lra]. }
  assert (Qq : dot3 q q = 1).
  { transitivity (s * s * dot3 u u - 2 * (c * s) * dot3 u v + c * c * dot3 v v); [unfold q; m3r; ring|rewrite U, V, UV; lra]. }
  assert (Pq : dot3 p q = 0).
  { transitivity (- (c * s) * dot3 u u + (c * c - s * s) * dot3 u v + c * s * dot3 v v); [unfold p, q; m3r; ring|rewrite U, V, UV; ring]. }
  assert (Pw : dot3 p w = 0).
  { transitivity (c * dot3 w u + s * dot3 w v); [unfold p; m3r; ring|rewrite WU, WV; ring]. }
  assert (Qw : dot3 q w = 0).
  { transitivity (- s * dot3 w u + c * dot3 w v); [unfold q; m3r; ring|rewrite WU, WV; ring]. }
  assert (O : orthonormal p q w) by (repeat split; assumption).
  assert (X : dot3 p (mulv3 a q) = 0).
  { rewrite <- Hd. transitivity (- (c * s) * dot3 u (mulv3 a u) + c * c * dot3 u (mulv3 a v) - s * s * dot3 v (mulv3 a u) + c * s * dot3 v (mulv3 a v)).
    - unfold p, q. m3r. ring.
    - rewrite <- (sym_dot a v u S), (dot_comm (mulv3 a v) u). ring. }
  assert (Y : dot3 (mulv3 a p) q = 0) by (rewrite (sym_dot a p q S); exact X).
  assert (Zp : dot3 (mulv3 a p) w = 0) by (rewrite (sym_dot a p w S), Aw; transitivity (l * dot3 p w); [m3r; ring|rewrite Pw; ring]).
  assert (Zq : dot3 (mulv3 a q) w = 0) by (rewrite (sym_dot a q w S), Aw; transitivity (l * dot3 q w); [m3r; ring|rewrite Qw; ring]).
  exists (dot3 (mulv3 a p) p), (dot3 (mulv3 a q) q), l, p, q, w. split; [exact O|]. split; [|split; [|exact Aw]].
  - rewrite (expand p q w (mulv3 a p) O) at 1. rewrite Y, Zp. generalize (dot3 (mulv3 a p) p). clearbody p q. intros. m3r. apply V3_eq; ring.
  - rewrite (expand p q w (mulv3 a q) O) at 1. rewrite (dot_comm (mulv3 a q) p), X, Zq. generalize (dot3 (mulv3 a q) q). clearbody p q. intros. m3r. apply V3_eq; ring.
Qed.
Lemma eigens_12 a e1 e2 e3 v1 v2 v3 : eigens a e1 e2 e3 v1 v2 v3 -> eigens a e2 e1 e3 v2 v1 v3.
Proof. intros ((A & B & C & D & E & F) & G & H & I). split; [|auto]. repeat split; try assumption. rewrite dot_comm. exact D. Qed.
Lemma eigens_23 a e1 e2 e3 v1 v2 v3 : eigens a e1 e2 e3 v1 v2 v3 -> eigens a e1 e3 e2 v1 v3 v2.
Proof. intros ((A & B & C & D & E & F) & G & H & I). split; [|auto]. repeat split; try assumption. rewrite dot_comm. exact F. Qed.
Lemma spectral_sorted a : symmetric a -> exists e1 e2 e3 v1 v2 v3, eigens a e1 e2 e3 v1 v2 v3 /\ e1 <= e2 <= e3.
Proof.
  intros S. destruct (spectral a S) as (e1 & e2 & e3 & v1 & v2 & v3 & E).
  destruct (Rle_or_lt e1 e2); destruct (Rle_or_lt e2 e3); destruct (Rle_or_lt e1 e3); try (exfalso; lra).
  - exists e1, e2, e3, v1, v2, v3. split; [exact E|lra].
  - exists e1, e3, e2, v1, v3, v2. split; [apply eigens_23, E|lra].
  - exists e3, e1, e2, v3, v1, v2. split; [apply eigens_12, eigens_23, E|lra].
  - exists e2, e1, e3, v2, v1, v3. split; [apply eigens_12, E|lra].
  - exists e2, e3, e1, v2, v3, v1. split; [apply eigens_23, eigens_12, E|lra].
  - exists e3, e2, e1, v3, v2, v1. split; [apply eigens_12, eigens_23, eigens_12, E|lra].
Qed.

Lemma svd_exists m : exists r, svd_of m r.
Proof.
  set (a := mul3 (tr3 m) m). assert (S : symmetric a) by (unfold symmetric, a; rewrite tr3_mul, tr3_tr; reflexivity).
  destruct (spectral_sorted a S) as (e3 & e2 & e1 & v3 & v2 & v1 & E & L).
  apply eigens_12, eigens_23, eigens_12 in E. destruct E as (O & A1 & A2 & A3).
  assert (G : forall u v, dot3 (mulv3 m u) (mulv3 m v) = dot3 u (mulv3 a v)) by (intros; unfold a; m3r; ring).
  assert (Gs : forall u v e, mulv3 a v = scal3 e v -> dot3 (mulv3 m u) (mulv3 m v) = e * dot3 u v) by (intros u v e H; rewrite G, H; m3r; ring).
  destruct O as (O1 & O2 & O3 & O12 & O13 & O23).
  pose proof (Gs v1 v1 e1 A1) as N1. rewrite O1, Rmult_1_r in N1. pose proof (Gs v2 v2 e2 A2) as N2. rewrite O2, Rmult_1_r in N2.
  pose proof (Gs v3 v3 e3 A3) as N3. rewrite O3, Rmult_1_r in N3.
  pose proof (Gs v1 v2 e2 A2) as N12. rewrite O12, Rmult_0_r in N12. pose proof (Gs v1 v3 e3 A3) as N13. rewrite O13, Rmult_0_r in N13.
  pose proof (Gs v2 v3 e3 A3) as N23. rewrite O23, Rmult_0_r in N23.
  assert (P3 : 0 <= e3) by (rewrite <- N3; apply dself).
  assert (T : forall v e, dot3 (mulv3 m v) (mulv3 m v) = e -> 0 < e -> mulv3 m v = scal3 (sqrt e) (unit_of (mulv3 m v))).
  { intros v e <- Pe. pose proof (sqrt_lt_R0 _ Pe) as Q. unfold unit_of. generalize dependent (sqrt (dot3 (mulv3 m v) (mulv3 m v))). generalize (mulv3 m v).
    intros x k K. m3r. apply V3_eq; field; lra. }
  assert (Z : forall v u e, dot3 (mulv3 m v) (mulv3 m v) = e -> e = 0 -> mulv3 m v = scal3 (sqrt e) u).
  { intros v u e H ->. rewrite sqrt_0. rewrite (dself0 _ H). unfold vzero. m3r. apply V3_eq; ring. }
  assert (U : forall v e, dot3 (mulv3 m v) (mulv3 m v) = e -> 0 < e -> dot3 (unit_of (mulv3 m v)) (unit_of (mulv3 m v)) = 1).
  { intros v e H Pe. apply unit_of_unit. intros Q. rewrite Q in H. revert H. unfold vzero. m3r. lra. }
  assert (K : exists u1 u2 u3, orthonormal u1 u2 u3 /\ mulv3 m v1 = scal3 (sqrt e1) u1 /\ mulv3 m v2 = scal3 (sqrt e2) u2 /\ mulv3 m v3 = scal3 (sqrt e3) u3).
  { destruct (Rle_lt_or_eq_dec 0 e3 P3) as [Q3|Q3]; [|destruct (Rle_lt_or_eq_dec 0 e2 ltac:(lra)) as [Q2|Q2]; [|destruct (Rle_lt_or_eq_dec 0 e1 ltac:(lra)) as [Q1|Q1]]].
    - exists (unit_of (mulv3 m v1)), (unit_of (mulv3 m v2)), (unit_of (mulv3 m v3)). split.
      + split; [exact (U v1 e1 N1 ltac:(lra))|]. split; [exact (U v2 e2 N2 ltac:(lra))|]. split; [exact (U v3 e3 N3 Q3)|].
        rewrite !dot_unit_of, !dot_unit_of', N12, N13, N23, !Rmult_0_r. auto.
      + split; [apply T; [exact N1|lra]|]. split; apply T; try assumption; lra.
    - exists (unit_of (mulv3 m v1)), (unit_of (mulv3 m v2)), (cross3 (unit_of (mulv3 m v1)) (unit_of (mulv3 m v2))). split.
      + apply complete2; [exact (U v1 e1 N1 ltac:(lra))|exact (U v2 e2 N2 Q2)|]. rewrite dot_unit_of, dot_unit_of', N12, !Rmult_0_r. reflexivity.
      + split; [apply T; [exact N1|lra]|]. split; [apply T; assumption|apply Z; [exact N3|lra]].
    - destruct (complete1 (unit_of (mulv3 m v1)) (U v1 e1 N1 Q1)) as (u & Uu & Wu).
      exists (unit_of (mulv3 m v1)), u, (cross3 (unit_of (mulv3 m v1)) u). split.
      + apply complete2; [exact (U v1 e1 N1 Q1)|exact Uu|exact Wu].
      + split; [apply T; assumption|]. split; apply Z; try assumption; lra.
    - exists (V3 1 0 0), (V3 0 1 0), (V3 0 0 1). split; [repeat split; m3r; ring|]. repeat split; apply Z; try assumption; lra. }
  destruct K as (u1 & u2 & u3 & Ou & M1 & M2 & M3).
  exists (columns u1 u2 u3, V3 (sqrt e1) (sqrt e2) (sqrt e3), columns v1 v2 v3). cbv beta iota delta [svd_of]. cbn [x3 y3 z3].
  split; [apply columns_orthogonal, Ou|]. split; [apply columns_orthogonal; repeat split; assumption|].
  split; [split; [apply sqrt_pos|apply sqrt_le_1; lra]|]. split; [apply sqrt_le_1; lra|].
  apply by_columns; [repeat split; assumption|exact M1|exact M2|exact M3].
Qed.
