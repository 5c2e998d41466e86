(* Faces with a corner of more than three parts. *)
From Coq Require Import Ascii String ZArith NArith Reals Bool List Lia.
From Verif Require Import Base RBase Text TextSpec TextProofs Ply Obj ObjSpec ObjProofs ObjProofs2 ObjProofs3.
Import ListNotations.
Local Open Scope list_scope.
Local Open Scope Z_scope.

Lemma slash_count w : forall cur, length (slash_from cur w) = S (count_occ Ascii.ascii_dec w slash).
Proof.
  induction w as [|c w IH]; intros cur; [reflexivity|]. cbn [slash_from count_occ]. destruct (Ascii.eqb_spec c slash) as [->|N].
  - destruct (Ascii.ascii_dec slash slash); [|contradiction]. cbn [length]. now rewrite IH.
  - destruct (Ascii.ascii_dec c slash); [contradiction|]. apply IH.
Qed.
Lemma corner_fails ps : ps <> [] -> match corner_of ps with Ok _ => (length ps <= 3)%nat | Fail e => e = EValue end.
Proof.
  intros H. destruct ps as [|v rest]; [easy|]. unfold corner_of. unfold int_of at 1. destruct (parse_int v); [|reflexivity]. cbn [rbind].
  destruct rest as [|t rest]; [cbn; lia|].
  destruct t as [|c t].
  - cbn [rbind]. destruct rest as [|n rest]; [cbn; lia|]. unfold int_of. destruct (parse_int n); [|reflexivity]. cbn [rbind]. destruct rest; [cbn; lia|reflexivity].
  - unfold int_of at 1. destruct (parse_int (c :: t)); [|reflexivity]. cbn [rbind].
    destruct rest as [|n rest]; [cbn; lia|]. unfold int_of. destruct (parse_int n); [|reflexivity]. cbn [rbind]. destruct rest; [cbn; lia|reflexivity].
Qed.
Lemma corners_fail ws w : In w ws -> (3 <= count_occ Ascii.ascii_dec w slash)%nat -> rmap (fun w => corner_of (slashes w)) ws = Fail EValue.
Proof.
  intros Hi Hc. induction ws as [|x ws IH]; [easy|]. cbn [rmap].
  pose proof (corner_fails (slashes x)) as F. destruct (corner_of (slashes x)) as [c|e].
  - destruct Hi as [->|Hi].
    + exfalso. unfold slashes in F. rewrite slash_count in F. assert (slash_from [] w <> []) by (pose proof (slash_count w []); destruct (slash_from [] w); easy). specialize (F H). lia.
    + cbn [rbind]. rewrite IH by auto. reflexivity.
  - rewrite F; [reflexivity|]. unfold slashes. pose proof (slash_count x []). destruct (slash_from [] x); easy.
Qed.
Lemma line_long ws w l s : In w ws -> (3 <= count_occ Ascii.ascii_dec w slash)%nat -> keyword_line "f" ws l -> obj_line s (strip str_space l) = Fail EValue.
Proof.
  intros Hi Hc K. apply keyword_strip in K as [(r & E) Et]; [|destruct ws; easy|lit].
  unfold obj_line. rewrite Et, E. change (starts "mtllib" (str "f" ++ sp :: r)) with false. cbv iota. change (text_eqb (str "f") (str "usemtl")) with false. cbv iota. change (starts "v " (str "f" ++ sp :: r)) with false. cbv iota.
  change (starts "vt " (str "f" ++ sp :: r)) with false. cbv iota. change (starts "vn " (str "f" ++ sp :: r)) with false. cbv iota. change (starts "f " (str "f" ++ sp :: r)) with true. cbv iota.
  cbn [tl]. unfold parse_face. rewrite (corners_fail ws w) by auto. reflexivity.
Qed.
