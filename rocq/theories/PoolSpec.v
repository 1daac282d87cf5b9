(** * Specification vocabulary for max pooling layers *)
From Verif Require Import Mem Scalar MemSpec Lique LiqueSpec Layer LayerSpec FunctionSpec ConvSpec.
Open Scope Z_scope.

(** Input (d, h, w) in windows of [vs] x [hs] elements that tile it: d x oh x ow windows. *)
Record tiling := mk_tiling { q_d : Z; q_oh : Z; q_ow : Z; q_vs : Z; q_hs : Z }.
Definition q_h (q : tiling) : Z := q_oh q * q_vs q.
Definition q_w (q : tiling) : Z := q_ow q * q_hs q.
Definition tiling_ok (q : tiling) : Prop :=
  0 <= q_d q < 2 ^ 64 /\ 0 <= q_oh q /\ 0 <= q_ow q /\ 0 < q_vs q /\ 0 < q_hs q /\
  q_h q < 2 ^ 64 /\ q_w q < 2 ^ 64 /\ q_d q * q_h q * q_w q < 2 ^ 64.
(** Shapes of the members of a pooling layer. *)
Definition pool_dims (L : pool) (q : tiling) : Prop :=
  tiling_ok q /\ p_isize L = shape3 (q_d q) (q_h q) (q_w q) /\ p_osize L = shape3 (q_d q) (q_oh q) (q_ow q) /\
  p_vs L = q_vs q /\ p_hs L = q_hs q /\
  ten_is (p_value L) (q_d q) (q_oh q) (q_ow q) /\ ten_is (p_buff L) (q_d q) (q_oh q) (q_ow q) /\
  ten_is (p_mask L) (q_d q) (q_h q) (q_w q) /\ ten_is (p_delta L) (q_d q) (q_h q) (q_w q).
Definition xpool_dims (L : xpool) (q : tiling) : Prop :=
  tiling_ok q /\ xp_isize L = shape3 (q_d q) (q_h q) (q_w q) /\ xp_osize L = shape3 (q_d q) (q_oh q) (q_ow q) /\
  xp_vs L = q_vs q /\ xp_hs L = q_hs q /\ ten_is (xp_value L) (q_d q) (q_oh q) (q_ow q).

Section Scan.
Context {T : Type} `{NT : Num T}.
(** Scan of window (y, z) of channel [c], row by row, for an element greater than all before:
    the element, its row and its column. *)
Definition window_scan (q : tiling) (x : Z -> T) (c y z : Z) : T * Z * Z :=
  zfold (q_vs q) (fun i => zfold (q_hs q) (fun j r =>
    let v := x (at3 (q_h q) (q_w q) c (y * q_vs q + i) (z * q_hs q + j)) in
    if ltb (fst (fst r)) v then (v, y * q_vs q + i, z * q_hs q + j) else r))
  (x (at3 (q_h q) (q_w q) c (y * q_vs q) (z * q_hs q)), y * q_vs q, z * q_hs q).
Definition window_max (q : tiling) (x : Z -> T) (c y z : Z) : T := fst (fst (window_scan q x c y z)).
(** 1 at the position found in each window, 0 elsewhere *)
Definition window_mask (q : tiling) (x : Z -> T) (c i j : Z) : T :=
  let r := window_scan q x c (i / q_vs q) (j / q_hs q) in
  if (i =? snd (fst r)) && (j =? snd r) then one else zero.
End Scan.
