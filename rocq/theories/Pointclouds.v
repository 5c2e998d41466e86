(* Model of pytorch3d/structures/pointclouds.py: the Pointclouds class as a record of optional
   caches, one function per method.
   Simplifications: points and normals are triples of reals, one row of features is a value of an
   arbitrary type F with a zero row (so the checks that all features have the same number of
   channels are not modelled); devices, dtypes and autograd are not modelled; after an exception
   the object is not looked at any more; tensors are values, so sharing of memory between objects
   is not modelled; the packed tensors are one optional field: update_padded copies some of them
   into an object without _points_packed, where they are recomputed before anybody reads them. *)
From Verif Require Import Base Packing RBase Geom FaceAreas Meshes.
Local Open Scope nat_scope.

(* the list and the padded form of the normals, or of the features *)
Record aux (A : Type) := Aux { aux_l : option (list (list A)); aux_p : option (padded A) }.
Arguments Aux {A} aux_l aux_p.
Arguments aux_l {A} a.
Arguments aux_p {A} a.

(* what may be given for normals or features; None in a list also stands for an empty tensor
   that is not two dimensional *)
Inductive aux_arg (A : Type) := GNone | GList (l : list (option (list A))) | GPad (p : padded A).
Arguments GNone {A}.
Arguments GList {A} l.
Arguments GPad {A} p.

(* pointclouds.py:298-364 _parse_auxiliary_input_list *)
Definition is_none {A} (o : option A) : bool := match o with None => true | Some _ => false end.
Definition parse_aux_list {A} (N : nat) (cnt : list nat) (l : list (option (list A))) : result (option (list (list A))) :=
  if negb (length l =? N) then Fail EValue
  else
    l' <- rmap (fun pd => match snd pd with
                          | None => if fst pd =? 0 then Ok [] else Fail EAttr      (* None.shape *)
                          | Some d => if fst pd =? length d then Ok d else Fail EValue
                          end) (combine cnt l) ;;
    Ok (if forallb (fun pd => (fst pd =? 0) && is_none (snd pd)) (combine cnt l) then None else Some l').

(* pointclouds.py:248-296 _parse_auxiliary_input *)
Definition parse_aux {A} (N P : nat) (cnt : list nat) (g : aux_arg A) : result (aux A) :=
  if N =? 0 then Ok (Aux None None)
  else match g with
       | GNone => Ok (Aux None None)
       | GList l => o <- parse_aux_list N cnt l ;; Ok (Aux o None)
       | GPad p => if negb (N =? length (rows p)) then Fail EValue
                   else if negb (P =? dim1 p) then Fail EValue
                   else Ok (Aux None (Some p))
       end.

(* pointclouds.py:453-485 normals_list, features_list *)
Definition aux_list {A} (cnt : list nat) (x : aux A) : result (option (list (list A)) * aux A) :=
  match aux_l x, aux_p x with
  | Some l, _ => Ok (Some l, x)
  | None, None => Ok (None, x)
  | None, Some p => l <- unpad p cnt ;; Ok (Some l, Aux (Some l) (Some p))
  end.

Section Features.
Variable F : Type.
Variable fzero : F.

Record cpacked := CPacked {
  cp_points : list vec3; cp_idx : list Z; cp_first : list nat;
  cp_normals : option (list vec3); cp_feats : option (list F) }.

Record pointclouds := PC {
  cN : nat; cP : nat; ceq : bool; cvalid : list bool; counts : list nat;
  pts_l : option (list (list vec3)); pts_p : option (padded vec3);
  nrm : aux vec3; fts : aux F;
  cpk : option cpacked; cp2p : option (list nat) }.

Definition with_pts l p c := PC (cN c) (cP c) (ceq c) (cvalid c) (counts c) l p (nrm c) (fts c) (cpk c) (cp2p c).
Definition with_nrm n c := PC (cN c) (cP c) (ceq c) (cvalid c) (counts c) (pts_l c) (pts_p c) n (fts c) (cpk c) (cp2p c).
Definition with_fts f c := PC (cN c) (cP c) (ceq c) (cvalid c) (counts c) (pts_l c) (pts_p c) (nrm c) f (cpk c) (cp2p c).
Definition with_pk k c := PC (cN c) (cP c) (ceq c) (cvalid c) (counts c) (pts_l c) (pts_p c) (nrm c) (fts c) k (cp2p c).
Definition with_p2p k c := PC (cN c) (cP c) (ceq c) (cvalid c) (counts c) (pts_l c) (pts_p c) (nrm c) (fts c) (cpk c) k.

(* pointclouds.py:187-216, 236-246: Pointclouds(points=list, ...) *)
Definition new_clouds (points : list (list vec3)) (normals : aux_arg vec3) (feats : aux_arg F) : result pointclouds :=
  let N := length points in
  let cnt := map (@length vec3) points in
  let P := max_nat cnt in
  n <- parse_aux N P cnt normals ;;
  f <- parse_aux N P cnt feats ;;
  Ok (PC N P (all_same cnt) (map (fun k => negb (k =? 0)) cnt) cnt (Some points) None n f None None).

(* pointclouds.py:217-246: Pointclouds(points=tensor, ...) *)
Definition new_clouds_padded (points : padded vec3) (normals : aux_arg vec3) (feats : aux_arg F) : result pointclouds :=
  let N := length (rows points) in
  let P := dim1 points in
  let cnt := repeat P N in
  n <- parse_aux N P cnt normals ;;
  f <- parse_aux N P cnt feats ;;
  Ok (PC N P true (repeat true N) cnt None (Some points) n f None None).

(* pointclouds.py:424-432 isempty *)
Definition no_points (c : pointclouds) : bool := no_valid (cN c) (cvalid c).

(* pointclouds.py:434-485 *)
Definition points_list (c : pointclouds) : result (list (list vec3) * pointclouds) :=
  match pts_l c, pts_p c with
  | Some l, _ => Ok (l, c)
  | None, None => Fail ERuntime                                   (* assert *)
  | None, Some p => l <- unpad p (counts c) ;; Ok (l, with_pts (Some l) (Some p) c)
  end.
Definition normals_list (c : pointclouds) : result (option (list (list vec3)) * pointclouds) :=
  x <- aux_list (counts c) (nrm c) ;; Ok (fst x, with_nrm (snd x) c).
Definition features_list (c : pointclouds) : result (option (list (list F)) * pointclouds) :=
  x <- aux_list (counts c) (fts c) ;; Ok (fst x, with_fts (snd x) c).

(* pointclouds.py:616-653 _compute_padded: _normals_padded and _features_padded are reset before
   the lists are asked for *)
Definition pad_aux {A} (e : bool) (P : nat) (z : A) (cnt : list nat) (x : aux A) : result (aux A) :=
  r <- aux_list cnt (Aux (aux_l x) None) ;;
  match fst r with
  | None => Ok (Aux (aux_l (snd r)) None)
  | Some l => p <- Meshes.pad_rows e P z l ;; Ok (Aux (aux_l (snd r)) (Some p))
  end.
Definition cloud_padded (c : pointclouds) : result pointclouds :=
  match pts_p c with
  | Some _ => Ok c
  | None =>
      if no_points c then
        Ok (with_fts (Aux (aux_l (fts c)) None) (with_nrm (Aux (aux_l (nrm c)) None)
             (with_pts (pts_l c) (Some (Pad 0 (repeat [] (cN c)))) c)))
      else
        lc <- points_list c ;; let '(l, c) := lc in
        p <- Meshes.pad_rows (ceq c) (cP c) zero_row l ;;
        n <- pad_aux (ceq c) (cP c) zero_row (counts c) (nrm c) ;;
        f <- pad_aux (ceq c) (cP c) fzero (counts c) (fts c) ;;
        Ok (with_fts f (with_nrm n (with_pts (pts_l c) (Some p) c)))
  end.

(* pointclouds.py:655-712 _compute_packed. torch.allclose on equal sizes is equality. *)
Definition pack_aux {A} (o : option (list (list A))) : result (option (list A)) :=
  match o with
  | None => Ok None
  | Some l => x <- list_to_packed l ;; let '(p, _, _, _) := x in Ok (Some p)
  end.
Definition cloud_packed (c : pointclouds) : result pointclouds :=
  match cpk c with
  | Some _ => Ok c
  | None =>
      lc <- points_list c ;; let '(l, c) := lc in
      nc <- normals_list c ;; let '(nl, c) := nc in
      fc <- features_list c ;; let '(fl, c) := fc in
      if no_points c then Ok (with_pk (Some (CPacked [] [] [] None None)) c)
      else
        x <- list_to_packed l ;; let '(p, num, first, idx) := x in
        if negb (nat_list_eqb (counts c) num) then Fail EValue
        else n <- pack_aux nl ;; f <- pack_aux fl ;;
             Ok (with_pk (Some (CPacked p idx first n f)) c)
  end.
Definition from_packed {A} (c : pointclouds) (k : cpacked -> A) : result (A * pointclouds) :=
  c <- cloud_packed c ;; match cpk c with Some p => Ok (k p, c) | None => Fail ERuntime end.

(* pointclouds.py:487-552 *)
Definition points_packed c := from_packed c cp_points.
Definition normals_packed c := from_packed c cp_normals.
Definition features_packed c := from_packed c cp_feats.
Definition packed_to_cloud_idx c := from_packed c cp_idx.
Definition cloud_to_packed_first_idx c := from_packed c cp_first.
Definition num_points_per_cloud c := counts c.

(* pointclouds.py:554-585 *)
Definition points_padded (c : pointclouds) : result (padded vec3 * pointclouds) :=
  c <- cloud_padded c ;; match pts_p c with Some p => Ok (p, c) | None => Fail ERuntime end.
Definition normals_padded (c : pointclouds) : result (option (padded vec3) * pointclouds) :=
  c <- cloud_padded c ;; Ok (aux_p (nrm c), c).
Definition features_padded (c : pointclouds) : result (option (padded F) * pointclouds) :=
  c <- cloud_padded c ;; Ok (aux_p (fts c), c).

(* pointclouds.py:587-614 padded_to_packed_idx *)
Definition padded_to_packed_idx (c : pointclouds) : result (list nat * pointclouds) :=
  match cp2p c with
  | Some l => Ok (l, c)
  | None => let l := concat (map (fun iv => map (fun j => j + fst iv * cP c) (seq 0 (snd iv)))
                                 (combine (seq 0 (length (counts c))) (counts c))) in
            Ok (l, with_p2p (Some l) c)
  end.

(* pointclouds.py:714-784 clone, detach; to (786-821) also copies. equisized is not a tensor and
   comes from the constructor *)
Definition given {A} (o : option (list (list A))) : aux_arg A :=
  match o with None => GNone | Some l => GList (map Some l) end.
Definition given_pad {A} (o : option (padded A)) : aux_arg A :=
  match o with None => GNone | Some p => GPad p end.
Definition copy_into (o c : pointclouds) : pointclouds :=
  PC (cN o) (cP o) (ceq o) (cvalid c) (counts c) (pts_l o) (or_else (pts_p c) (pts_p o))
     (Aux (aux_l (nrm o)) (or_else (aux_p (nrm c)) (aux_p (nrm o))))
     (Aux (aux_l (fts o)) (or_else (aux_p (fts c)) (aux_p (fts o))))
     (or_else (cpk c) (cpk o)) (or_else (cp2p c) (cp2p o)).
Definition cloud_clone (c : pointclouds) : result (pointclouds * pointclouds) :=
  match pts_l c, pts_p c with
  | Some l, _ =>
      nc <- normals_list c ;; let '(nl, c) := nc in
      fc <- features_list c ;; let '(fl, c) := fc in
      o <- new_clouds l (given nl) (given fl) ;; Ok (copy_into o c, c)
  | None, Some p => o <- new_clouds_padded p (given_pad (aux_p (nrm c))) (given_pad (aux_p (fts c))) ;; Ok (copy_into o c, c)
  | None, None => Fail EValue
  end.

(* ---- in place changes ---- *)
Definition cloud_write (c : pointclouds) (l : list (list vec3)) : result pointclouds :=
  match pts_p c with
  | None => Ok c
  | Some p => rs <- write_rows (rows p) l ;; Ok (with_pts (pts_l c) (Some (Pad (dim1 p) rs)) c)
  end.
(* pointclouds.py:881-910 offset_ *)
Definition cloud_offset_ (o : offset) (c : pointclouds) : result pointclouds :=
  xc <- points_packed c ;; let '(x, c) := xc in
  let off := match o with OneOffset v => repeat v (length x) | AllOffsets l => l end in
  if negb (length off =? length x) then Fail EValue
  else
    let x' := add_rows x off in
    match cpk c with
    | None => Fail ERuntime
    | Some k =>
        let c := with_pk (Some (CPacked x' (cp_idx k) (cp_first k) (cp_normals k) (cp_feats k))) c in
        l <- packed_to_list x' (counts c) ;;
        cloud_write (with_pts (Some l) (pts_p c) c) l
    end.
(* pointclouds.py:973-998 scale_ *)
Definition cloud_scale_ (s : scale_arg) (c : pointclouds) : result pointclouds :=
  let sc := match s with OneScale x => repeat x (cN c) | AllScales l => l end in
  lc <- points_list c ;; let '(l, c) := lc in
  if length sc <? length l then Fail EIndex
  else
    let l' := map (fun p => map (scal3 (fst p)) (snd p)) (combine sc l) in
    let c := with_pts (Some l') (pts_p c) c in
    c <- match cpk c with
         | None => Ok c
         | Some k => match l' with
                     | [] => Fail ERuntime                          (* torch.cat([]) *)
                     | _ => Ok (with_pk (Some (CPacked (concat l') (cp_idx k) (cp_first k) (cp_normals k) (cp_feats k))) c)
                     end
         end ;;
    cloud_write c l'.
(* pointclouds.py:912-923, 1000-1012: out of place *)
Definition cloud_offset (o : offset) (c : pointclouds) : result (pointclouds * pointclouds) :=
  x <- cloud_clone c ;; n <- cloud_offset_ o (fst x) ;; Ok (n, snd x).
Definition cloud_scale (s : scale_arg) (c : pointclouds) : result (pointclouds * pointclouds) :=
  x <- cloud_clone c ;; n <- cloud_scale_ s (fst x) ;; Ok (n, snd x).

(* pointclouds.py:1033-1083 estimate_normals(assign_to_self=True); est is what
   ops.estimate_pointcloud_normals returns, it asks for points_padded (ops/utils.py:141) *)
Definition assign_normals (est : padded vec3) (c : pointclouds) : result pointclouds :=
  c <- cloud_padded c ;;
  n <- parse_aux (cN c) (cP c) (counts c) (GPad est) ;;
  let c := with_nrm (Aux None (aux_p n)) c in
  c <- match pts_l c with
       | None => Ok c
       | Some _ => x <- normals_list c ;; Ok (snd x)
       end ;;
  match cpk c with
  | None => Ok c
  | Some k => match aux_l (nrm c) with
              | None => Fail EType                                  (* torch.cat(None) *)
              | Some [] => Fail ERuntime
              | Some l => Ok (with_pk (Some (CPacked (cp_points k) (cp_idx k) (cp_first k) (Some (concat l)) (cp_feats k))) c)
              end
  end.

(* pointclouds.py:1117-1202 update_padded *)
Definition shape_ok {A} (N P : nat) (p : padded A) : bool := (length (rows p) =? N) && (dim1 p =? P).
Definition shape_ok_opt {A} (N P : nat) (o : option (padded A)) : bool :=
  match o with None => true | Some p => shape_ok N P p end.
Definition cloud_update (np : padded vec3) (nn : option (padded vec3)) (nf : option (padded F)) (c : pointclouds)
  : result pointclouds :=
  if negb (shape_ok (cN c) (cP c) np && shape_ok_opt (cN c) (cP c) nn && shape_ok_opt (cN c) (cP c) nf) then Fail EValue
  else
    o <- new_clouds_padded np (given_pad nn) (given_pad nf) ;;
    Ok (PC (cN o) (cP o) (ceq c) (cvalid c) (counts c) None (Some np)
          (match nn with None => nrm c | Some p => Aux None (Some p) end)
          (match nf with None => fts c | Some p => Aux None (Some p) end)
          None (or_else (cp2p c) (cp2p o))).

(* ---- batches ---- *)
(* pointclouds.py:369-422 __getitem__. Slices have step 1 and non-negative bounds. *)
Definition pick_opt {A} (o : option (list (list A))) (ix : mindex) : result (option (list (list A))) :=
  match o with None => Ok None | Some l => x <- pick l ix ;; Ok (Some x) end.
Definition cloud_getitem (ix : mindex) (c : pointclouds) : result (pointclouds * pointclouds) :=
  nc <- normals_list c ;; let '(nl, c) := nc in
  fc <- features_list c ;; let '(fl, c) := fc in
  lc <- points_list c ;; let '(l, c) := lc in
  x <- pick l ix ;; n <- pick_opt nl ix ;; f <- pick_opt fl ix ;;
  o <- new_clouds x (given n) (given f) ;; Ok (o, c).

(* pointclouds.py:829-857 get_cloud *)
Definition nth_opt {A} (o : option (list (list A))) (i : Z) : result (option (list A)) :=
  match o with None => Ok None | Some l => x <- py_nth l i ;; Ok (Some x) end.
Definition get_cloud (i : Z) (c : pointclouds) : result (list vec3 * option (list vec3) * option (list F)) :=
  if (i <? 0)%Z || (Z.of_nat (cN c) <? i)%Z then Fail EValue
  else
    lc <- points_list c ;; let '(l, c) := lc in
    x <- py_nth l i ;;
    nc <- normals_list c ;; let '(nl, c) := nc in
    n <- nth_opt nl i ;;
    fc <- features_list c ;; let '(fl, c) := fc in
    f <- nth_opt fl i ;; Ok (x, n, f).

(* pointclouds.py:859-879 split *)
Fixpoint cloud_split_from (cur : nat) (sizes : list nat) (c : pointclouds) : result (list pointclouds * pointclouds) :=
  match sizes with
  | [] => Ok ([], c)
  | n :: ss => oc <- cloud_getitem (XSlice cur (cur + n)) c ;; let '(o, c) := oc in
               rc <- cloud_split_from (cur + n) ss c ;; let '(r, c) := rc in Ok (o :: r, c)
  end.
Definition cloud_split (sizes : list nat) (c : pointclouds) := cloud_split_from 0 sizes c.

(* pointclouds.py:1085-1115 extend *)
Definition repeat_each {A} (n : nat) (l : list A) : list A := flat_map (fun x => repeat x n) l.
Definition cloud_extend (n : Z) (c : pointclouds) : result (pointclouds * pointclouds) :=
  if (n <=? 0)%Z then Fail EValue
  else
    lc <- points_list c ;; let '(l, c) := lc in
    nc <- normals_list c ;; let '(nl, c) := nc in
    fc <- features_list c ;; let '(fl, c) := fc in
    let k := Z.to_nat n in
    o <- new_clouds (repeat_each k l) (given (option_map (repeat_each k) nl)) (given (option_map (repeat_each k) fl)) ;;
    Ok (o, c).

(* pointclouds.py:925-971 subsample; keeps: what np.random.choice returns for each cloud. A
   negative number of points raises and is not modelled. *)
Inductive max_arg := MaxOne (k : nat) | MaxEach (l : list nat).
Definition keep_rows {A} (n mx : nat) (keep : list nat) (l : list A) : result (list A) :=
  if mx <? n then rmap (fun i => match nth_error l i with Some x => Ok x | None => Fail EIndex end) keep else Ok l.
Fixpoint keep_each {A} (cnt mx : list nat) (keeps : list (list nat)) (l : list (list A)) : result (list (list A)) :=
  match cnt, mx, keeps, l with
  | n :: cnt', m :: mx', k :: keeps', x :: l' =>
      y <- keep_rows n m k x ;; r <- keep_each cnt' mx' keeps' l' ;; Ok (y :: r)
  | [], [], [], [] => Ok []
  | _, _, _, _ => Fail ERuntime
  end.
Definition keep_opt {A} cnt mx keeps (o : option (list (list A))) : result (option (list (list A))) :=
  match o with None => Ok None | Some l => r <- keep_each cnt mx keeps l ;; Ok (Some r) end.
Definition subsample (mx : max_arg) (keeps : list (list nat)) (c : pointclouds) : result (pointclouds * pointclouds) :=
  let mx := match mx with MaxOne k => repeat k (cN c) | MaxEach l => l end in
  if negb (length mx =? cN c) then Fail EValue
  else if forallb (fun p => fst p <=? snd p) (combine (counts c) mx) then Ok (c, c)
  else
    lc <- points_list c ;; let '(l, c) := lc in
    fc <- features_list c ;; let '(fl, c) := fc in
    nc <- normals_list c ;; let '(nl, c) := nc in
    x <- keep_each (counts c) mx keeps l ;;
    f <- keep_opt (counts c) mx keeps fl ;;
    n <- keep_opt (counts c) mx keeps nl ;;
    o <- new_clouds x (given n) (given f) ;; Ok (o, c).

(* pointclouds.py:1014-1031 get_bounding_boxes *)
Definition cloud_boxes (c : pointclouds) : result (list ((R * R) * (R * R) * (R * R))) :=
  lc <- points_list c ;; match fst lc with [] => Fail ERuntime | l => rmap bbox l end.

(* pointclouds.py:1204-1244 inside_box *)
Inductive box_arg := BoxOne (b : vec3 * vec3) | BoxEach (l : list (vec3 * vec3)).
Definition box_bad (b : vec3 * vec3) : bool :=
  Rltb (x3 (snd b)) (x3 (fst b)) || Rltb (y3 (snd b)) (y3 (fst b)) || Rltb (z3 (snd b)) (z3 (fst b)).
Definition in_box (b : vec3 * vec3) (p : vec3) : bool :=
  (Rleb (x3 (fst b)) (x3 p) && Rleb (x3 p) (x3 (snd b))) &&
  (Rleb (y3 (fst b)) (y3 p) && Rleb (y3 p) (y3 (snd b))) &&
  (Rleb (z3 (fst b)) (z3 p) && Rleb (z3 p) (z3 (snd b))).
Definition inside_box (b : box_arg) (c : pointclouds) : result (list bool * pointclouds) :=
  let bs := match b with BoxOne b => [b] | BoxEach l => l end in
  if negb (length bs =? 1) && negb (length bs =? cN c) then Fail EValue
  else if existsb box_bad bs then Fail EValue
  else
    xc <- points_packed c ;; let '(x, c) := xc in
    boxes <- match bs with
             | [] => Fail ERuntime                                   (* torch.cat([]) *)
             | [b] => Ok (repeat b (length x))
             | _ => Ok (concat (map (fun bp => repeat (fst bp) (snd bp)) (combine bs (counts c))))
             end ;;
    if negb (length boxes =? length x) then Fail ERuntime
    else Ok (map (fun bp => in_box (fst bp) (snd bp)) (combine boxes x), c).

(* pointclouds.py:1247-1285 join_pointclouds_as_batch; the argument objects only gain list caches *)
Definition join_field {A} (l : list (option (list (list A)))) : result (option (list (list A))) :=
  if existsb is_none l
  then if forallb is_none l then Ok None else Fail EValue
  else Ok (Some (concat (map (fun o => match o with Some x => x | None => [] end) l))).
Definition join_clouds (l : list pointclouds) : result pointclouds :=
  match l with
  | [] => Fail EIndex
  | _ =>
      x <- rmap (fun c => r <- points_list c ;; Ok (fst r)) l ;;
      n <- rmap (fun c => r <- normals_list c ;; Ok (fst r)) l ;; n <- join_field n ;;
      f <- rmap (fun c => r <- features_list c ;; Ok (fst r)) l ;; f <- join_field f ;;
      new_clouds (concat x) (given n) (given f)
  end.
(* pointclouds.py:1288-1317 join_pointclouds_as_scene of one object; of a list: join_clouds first *)
Definition join_clouds_scene (c : pointclouds) : result pointclouds :=
  if cN c =? 1 then Ok c
  else
    xc <- points_packed c ;; let '(x, c) := xc in
    fc <- features_packed c ;; let '(f, c) := fc in
    nc <- normals_packed c ;; let '(n, c) := nc in
    let one {A} (o : option (list A)) : aux_arg A := match o with None => GNone | Some l => GPad (Pad (length l) [l]) end in
    new_clouds_padded (Pad (length x) [x]) (one n) (one f).
End Features.
