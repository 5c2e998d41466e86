(* C30: pack_rectangles and pack_unique_rectangles. *)
From Verif Require Import Base Rectangles RectanglesSpec.
From Verif Require RectanglesProofs RectanglesProofs2.
Local Open Scope Z_scope.

(* every rectangle gets a place inside the sheet, turned or not, and no cell belongs to two of them *)
Theorem packed_rectangles_fit : forall sizes, (2 <= length sizes)%nat -> Forall positive sizes ->
  exists sheet locs, pack_rectangles sizes = Ok (sheet, locs) /\ length locs = length sizes /\
    (forall i s p, nth_error sizes i = Some s -> nth_error locs i = Some p -> is_first p = true /\ within sheet s p) /\
    (forall i j s p s' p' x y, i <> j -> nth_error sizes i = Some s -> nth_error locs i = Some p -> nth_error sizes j = Some s' -> nth_error locs j = Some p' ->
       contains s p x y -> contains s' p' x y -> False).
Proof. exact RectanglesProofs.pack_ok. Qed.
Print Assumptions packed_rectangles_fit.

(* with identifiers: one place per identifier, the first occurrence marked, and different identifiers apart *)
Theorem packed_unique_fit : forall l, (2 <= length l)%nat -> Forall (fun r => positive (fst r)) l -> same_sizes l ->
  exists sheet locs, pack_unique l = Ok (sheet, locs) /\ length locs = length l /\
    (forall i r p, nth_error l i = Some r -> nth_error locs i = Some p -> within sheet (fst r) p /\ (is_first p = true <-> first_of l i)) /\
    (forall i j r p r' p', nth_error l i = Some r -> nth_error locs i = Some p -> nth_error l j = Some r' -> nth_error locs j = Some p' ->
       (snd r = snd r' -> px p = px p' /\ py p = py p' /\ flipped p = flipped p') /\
       (snd r <> snd r' -> forall x y, contains (fst r) p x y -> contains (fst r') p' x y -> False)).
Proof. exact RectanglesProofs2.unique_ok. Qed.
Print Assumptions packed_unique_fit.

Theorem packing_needs_two : forall sizes l, (length sizes < 2)%nat -> (length l < 2)%nat -> pack_rectangles sizes = Fail EValue /\ pack_unique l = Fail EValue.
Proof.
  intros sizes l H H'. unfold pack_rectangles, pack_unique. apply Nat.ltb_lt in H, H'. rewrite H, H'. split; reflexivity.
Qed.
Print Assumptions packing_needs_two.

(* a rectangle of width 0 can be put outside of the sheet *)
Theorem empty_rectangle_refuted : exists sizes sheet locs s p, pack_rectangles sizes = Ok (sheet, locs) /\ Forall (fun s => 0 <= fst s /\ 0 <= snd s) sizes /\
  nth_error sizes 2 = Some s /\ nth_error locs 2 = Some p /\ ~ within sheet s p.
Proof.
  exists [(2, 2); (2, 2); (2, 0)], (2, 4), [Place 0 2 false true; Place 0 0 false true; Place 2 4 true true], (2, 0), (Place 2 4 true true).
  split; [reflexivity|]. split; [repeat constructor; cbn; lia|]. split; [reflexivity|]. split; [reflexivity|]. unfold within, extent. cbn. lia.
Qed.
Print Assumptions empty_rectangle_refuted.

(* the hypotheses can be met; all three ways of placing a rectangle occur here *)
Example five_rectangles : (2 <= length [(8, 2); (3, 6); (2, 1); (1, 4); (2, 2)])%nat /\ Forall positive [(8, 2); (3, 6); (2, 1); (1, 4); (2, 2)] /\
  exists locs, pack_rectangles [(8, 2); (3, 6); (2, 1); (1, 4); (2, 2)] = Ok ((8, 6), locs) /\ map flipped locs = [false; true; false; true; false].
Proof. split; [cbn; lia|]. split; [repeat constructor; cbn; lia|]. eexists. split; [vm_compute; reflexivity|reflexivity]. Qed.
Example shared_rectangles : same_sizes [((4, 2), 7); ((1, 3), 8); ((4, 2), 7)] /\
  exists locs, pack_unique [((4, 2), 7); ((1, 3), 8); ((4, 2), 7)] = Ok ((4, 3), locs) /\ map is_first locs = [true; true; false].
Proof.
  split; [|eexists; split; [vm_compute; reflexivity|reflexivity]].
  intros r r' H H' E. cbn in H, H'. destruct H as [<-|[<-|[<-|[]]]], H' as [<-|[<-|[<-|[]]]]; cbn in E; try discriminate; reflexivity.
Qed.
