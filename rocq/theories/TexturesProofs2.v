From Verif Require Import Base RBase Rectangles RectanglesSpec RectanglesProofs RectanglesProofs2 Textures TexturesSpec TexturesProofs.
From Coq Require Import Lra.
Local Open Scope R_scope.

Definition src (m : tmap) (loc : place) : tmap := if flipped loc then transpose m else m.
Definition bd (align : bool) : Z := if align then 0%Z else 1%Z.
Definition room (align : bool) (m : tmap) : Z * Z := let e := if align then 0%Z else 2%Z in (mh m + e, mw m + e)%Z.
Definition keeps_border (align : bool) (mode : pad_mode) : bool := match mode with Zeros => false | _ => negb align end.

Lemma room_src align m loc r c : contains (room align m) loc r c <->
  (px loc <= r < px loc + mh (src m loc) + 2 * bd align /\ py loc <= c < py loc + mw (src m loc) + 2 * bd align)%Z.
Proof. unfold contains, extent, room, src, bd, transpose. destruct (flipped loc), align; cbn [fst snd mh mw]; lia. Qed.

Ltac split_if := match goal with |- context [if ?b then _ else _] => let H := fresh "B" in destruct b eqn:H; try (exfalso; unfold in_range in *; lia) end.
Lemma place_value align mode single m loc r c : (0 < mh (src m loc))%Z -> (0 < mw (src m loc))%Z ->
  let lu := (px loc + bd align)%Z in let lv := (py loc + bd align)%Z in
  (contains (room align m) loc r c ->
     ((0 <= r - lu < mh (src m loc))%Z /\ (0 <= c - lv < mw (src m loc))%Z \/ keeps_border align mode = true ->
        place_map align mode single m loc r c = tex (src m loc) (clampZ (mh (src m loc)) (r - lu)) (clampZ (mw (src m loc)) (c - lv))) /\
     (~ ((0 <= r - lu < mh (src m loc))%Z /\ (0 <= c - lv < mw (src m loc))%Z) -> keeps_border align mode = false -> place_map align mode single m loc r c = single r c)) /\
  (~ contains (room align m) loc r c -> place_map align mode single m loc r c = single r c).
Proof.
  intros H1 H2 lu lv. rewrite room_src. unfold place_map. fold (src m loc). fold (bd align). fold (keeps_border align mode).
  set (S := src m loc) in *. fold lu. fold lv. destruct (keeps_border align mode) eqn:K.
  - assert (Ea : align = false) by (destruct align, mode; (reflexivity || discriminate)). subst align. cbn [bd] in *.
    split.
    + intros HC. split; [intros _|intros _ C; discriminate].
      assert (R3 : (r = lu - 1 \/ lu <= r < lu + mh S \/ r = lu + mh S)%Z) by lia. assert (C3 : (c = lv - 1 \/ lv <= c < lv + mw S \/ c = lv + mw S)%Z) by lia. clear HC.
      unfold assign. destruct R3 as [R3|[R3|R3]], C3 as [C3|[C3|C3]]; repeat split_if; f_equal; unfold clampZ; lia.
    + intros HC. unfold assign. repeat split_if. reflexivity.
  - split.
    + intros HC. split.
      * intros [Hin|C]; [|discriminate]. unfold assign. repeat split_if. f_equal; unfold clampZ; lia.
      * intros Hin _. unfold assign. repeat split_if. reflexivity.
    + intros HC. unfold assign. repeat split_if; [|reflexivity]. exfalso. apply HC. unfold in_range in *. unfold bd in *. destruct align; lia.
Qed.
