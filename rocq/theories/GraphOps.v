(* Model of csrc/gather_scatter/gather_scatter_cpu.cpp, gather_scatter.cu, ops/graph_conv.py and of
   csrc/interp_face_attrs/interp_face_attrs.cu, ops/interp_face_attrs.py. Exact reals. *)
From Verif Require Import Base RBase.
Local Open Scope R_scope.

(* "output[v][d] += value" *)
Definition gwrite : Type := nat * nat * R.
Definition gs_run (ws : list gwrite) : nat -> nat -> R :=
  fold_left (fun g w => let '(v, d, x) := w in
     fun a b => if ((a =? v) && (b =? d))%nat then g a b + x else g a b) ws (fun _ _ => 0).
(* gather_scatter_cpu.cpp:24-38 / gather_scatter.cu:24-49: additions made for one edge *)
Definition gs_edge (D : nat) (directed backward : bool) (x : nat -> nat -> R) (e : nat * nat) : list gwrite :=
  let v0 := if backward then snd e else fst e in
  let v1 := if backward then fst e else snd e in
  flat_map (fun d => (v0, d, x v1 d) :: (if directed then [] else [(v1, d, x v0 d)])) (seq 0 D).
(* an index outside [0, V) is rejected in the model; the kernel does not check it *)
Definition gs_ok (V : nat) (edges : list (nat * nat)) : bool :=
  forallb (fun e => ((fst e <? V) && (snd e <? V))%nat) edges.
Definition gather_scatter (V D : nat) (x : nat -> nat -> R) (edges : list (nat * nat)) (directed backward : bool)
  : result (nat -> nat -> R) :=
  if gs_ok V edges then Ok (gs_run (flat_map (gs_edge D directed backward x) edges)) else Fail EOutOfBounds.
(* ops/graph_conv.py:92-137 gather_scatter_python: scatter_add(0, idx0, input.gather(0, idx1)), then
   the reverse when undirected *)
Definition scatter_add (D : nat) (base : nat -> nat -> R) (idx : list nat) (src : nat -> nat -> R) : nat -> nat -> R :=
  fun v d => if (d <? D)%nat
             then base v d + rsum (map (fun ei => if (snd ei =? v)%nat then src (fst ei) d else 0) (combine (seq 0 (length idx)) idx))
             else base v d.
Definition gs_python (V D : nat) (x : nat -> nat -> R) (edges : list (nat * nat)) (directed : bool) : result (nat -> nat -> R) :=
  if gs_ok V edges then
    let idx0 := map fst edges in
    let idx1 := map snd edges in
    let out := scatter_add D (fun _ _ => 0) idx0 (fun e d => x (nth e idx1 0%nat) d) in
    Ok (if directed then out else scatter_add D out idx1 (fun e d => x (nth e idx0 0%nat) d))
  else Fail ERuntime.
(* GraphConv.forward, graph_conv.py:56-85: w0(verts) + gather_scatter(w1(verts)) *)
Definition linear (W : nat -> nat -> R) (b : nat -> R) (Din : nat) (x : nat -> nat -> R) : nat -> nat -> R :=
  fun v o => sumf Din (fun i => W o i * x v i) + b o.
Definition graph_conv (V Din Dout : nat) (W0 W1 : nat -> nat -> R) (b0 b1 : nat -> R) (x : nat -> nat -> R)
    (edges : list (nat * nat)) (directed : bool) : result (nat -> nat -> R) :=
  nb <- gather_scatter V Dout (linear W1 b1 Din x) edges directed false ;;
  Ok (fun v o => linear W0 b0 Din x v o + nb v o).

(* ------------------------------------------------------------------ interpolation of face attributes *)
(* attribute d of vertex i of face f; bary p i *)
Section Interp.
  Variables (F D : nat) (attr : nat -> nat -> nat -> R) (bary : nat -> nat -> R) (face : nat -> Z).
  (* InterpFaceAttrsForwardKernel, interp_face_attrs.cu:24-40 *)
  Definition interp_cuda (p d : nat) : R :=
    if (face p <? 0)%Z then 0
    else fold_left (fun acc i => acc + bary p i * attr (Z.to_nat (face p)) i d) (seq 0 3) 0.
  (* interpolate_face_attributes_python, interp_face_attrs.py:84-102: masked pixels read face 0, so
     the gather fails when there is no face at all *)
  Definition interp_python (p d : nat) : result R :=
    let mask := (face p <? 0)%Z in
    let f := if mask then 0%nat else Z.to_nat (face p) in
    if (f <? F)%nat then
      let v := sumf 3 (fun i => bary p i * attr f i d) in
      Ok (if mask then 0 else v)
    else Fail ERuntime.
End Interp.
(* InterpFaceAttrsBackwardKernel, interp_face_attrs.cu:98-118 *)
Inductive icell := IB (p i : nat) | IA (f i d : nat).
Definition icell_eqb (x y : icell) : bool :=
  match x, y with
  | IB a b, IB c d => ((a =? c) && (b =? d))%nat
  | IA a b c, IA d e f => ((a =? d) && (b =? e) && (c =? f))%nat
  | _, _ => false
  end.
Definition irun (ws : list (icell * R)) : icell -> R :=
  fold_left (fun g w => fun x => if icell_eqb x (fst w) then g x + snd w else g x) ws (fun _ => 0).
Definition interp_writes (attr : nat -> nat -> nat -> R) (bary : nat -> nat -> R) (face : nat -> Z)
    (grad : nat -> nat -> R) (pd : nat * nat) : list (icell * R) :=
  let '(p, d) := pd in
  if (face p <? 0)%Z then []
  else let f := Z.to_nat (face p) in
       flat_map (fun i => [(IB p i, attr f i d * grad p d); (IA f i d, bary p i * grad p d)]) (seq 0 3).
