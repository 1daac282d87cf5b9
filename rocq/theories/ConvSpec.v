(** * Specification vocabulary for convolutional layers *)
From Verif Require Import Mem Scalar MemSpec Lique LiqueSpec Layer LayerSpec FunctionSpec.
Open Scope Z_scope.

(** The geometry of a convolution: input depth, height, width; number, height, width of the
    filters (their depth is that of the input); padding; vertical and horizontal stride. *)
Record geometry := mk_geometry {
  g_d : Z; g_h : Z; g_w : Z; g_f : Z; g_fh : Z; g_fw : Z; g_p : Z; g_vs : Z; g_hs : Z }.
Definition out_h (g : geometry) : Z := (g_h g - g_fh g + 2 * g_p g) / g_vs g + 1.
Definition out_w (g : geometry) : Z := (g_w g - g_fw g + 2 * g_p g) / g_hs g + 1.
(** extent of the incoming delta when spread by the strides *)
Definition spread_h (g : geometry) : Z := g_vs g * (out_h g - 1) + 1.
Definition spread_w (g : geometry) : Z := g_hs g * (out_w g - 1) + 1.
(** At least one filter, non-zero strides, the filter fits the padded input, and every element
    count fits size_t. *)
Definition geometry_ok (g : geometry) : Prop :=
  1 <= g_f g /\ 0 <= g_d g /\ 0 <= g_h g /\ 0 <= g_w g /\ 0 <= g_fh g /\ 0 <= g_fw g /\ 0 <= g_p g /\
  0 < g_vs g /\ 0 < g_hs g /\ g_fh g <= g_h g + 2 * g_p g /\ g_fw g <= g_w g + 2 * g_p g /\
  g_h g + 2 * g_p g < 2 ^ 64 /\ g_w g + 2 * g_p g < 2 ^ 64 /\
  g_f g < 2 ^ 64 /\ g_d g * g_h g * g_w g < 2 ^ 64 /\ g_d g * g_fh g * g_fw g < 2 ^ 64 /\
  g_f g * out_h g * out_w g < 2 ^ 64 /\ g_f g * spread_h g * spread_w g < 2 ^ 64.

(** Position of element (c, i, j) of a tensor of height [h] and width [w] in its flat storage. *)
Definition at3 (h w c i j : Z) : Z := (c * h + i) * w + j.
Definition in_box (h w i j : Z) : bool := (0 <=? i) && (i <? h) && ((0 <=? j) && (j <? w)).

(** Shapes of the members of a convolutional layer of geometry [g]. *)
Definition conv_dims (L : conv) (g : geometry) : Prop :=
  geometry_ok g /\
  c_isize L = shape3 (g_d g) (g_h g) (g_w g) /\ c_osize L = shape3 (g_f g) (out_h g) (out_w g) /\
  c_pad L = g_p g /\ c_vs L = g_vs g /\ c_hs L = g_hs g /\ c_fcount L = g_f g /\
  c_fsize L = shape3 (g_d g) (g_fh g) (g_fw g) /\
  Z.of_nat (length (c_Ws L)) = g_f g /\ Z.of_nat (length (c_gradWs L)) = g_f g /\
  (forall t, In t (c_Ws L ++ c_gradWs L) -> ten_is t (g_d g) (g_fh g) (g_fw g)) /\
  t_size (c_B L) = g_f g /\ t_size (c_gradB L) = g_f g /\
  ten_is (c_value L) (g_f g) (out_h g) (out_w g) /\ ten_is (c_delta L) (g_d g) (g_h g) (g_w g) /\
  ten_is (c_buff L) (g_f g) (spread_h g) (spread_w g).
Definition xconv_dims (L : xconv) (g : geometry) : Prop :=
  geometry_ok g /\
  xc_isize L = shape3 (g_d g) (g_h g) (g_w g) /\ xc_osize L = shape3 (g_f g) (out_h g) (out_w g) /\
  xc_pad L = g_p g /\ xc_vs L = g_vs g /\ xc_hs L = g_hs g /\ xc_fcount L = g_f g /\
  xc_fsize L = shape3 (g_d g) (g_fh g) (g_fw g) /\ Z.of_nat (length (xc_Ws L)) = g_f g /\
  (forall t, In t (xc_Ws L) -> ten_is t (g_d g) (g_fh g) (g_fw g)) /\
  t_size (xc_B L) = g_f g /\ ten_is (xc_value L) (g_f g) (out_h g) (out_w g).

Section Values.
Context {T : Type} `{NT : Num T}.
(** One output of the convolution, in the order of evaluation of the code: start from the bias,
    run over the positions of the filter, skip those outside the input. *)
Definition conv_val (g : geometry) (B : Z -> T) (W : Z -> Z -> T) (x : Z -> T) (f y z : Z) : T :=
  zfold (g_fh g) (fun i => zfold (g_fw g) (fun j sum =>
    let r := g_vs g * y + i - g_p g in let c' := g_hs g * z + j - g_p g in
    if in_box (g_h g) (g_w g) r c'
    then zfold (g_d g) (fun c sum => add sum (mul (x (at3 (g_h g) (g_w g) c r c')) (W f (at3 (g_fh g) (g_fw g) c i j)))) sum
    else sum)) (B f).
(** The incoming delta spread by the strides, over previous contents [old]. *)
Definition spread_val (g : geometry) (d old : Z -> T) (f r c : Z) : T :=
  if (r mod g_vs g =? 0) && (c mod g_hs g =? 0) then d (at3 (out_h g) (out_w g) f (r / g_vs g) (c / g_hs g))
  else old (at3 (spread_h g) (spread_w g) f r c).
(** Accumulation into the weight and bias gradients ([b]: the spread delta). *)
Definition gradw_val (g : geometry) (b : Z -> Z -> Z -> T) (x : Z -> T) (f c i j : Z) (old : T) : T :=
  zfold (spread_h g) (fun r => zfold (spread_w g) (fun q acc =>
    if in_box (g_h g) (g_w g) (i + r - g_p g) (j + q - g_p g)
    then add acc (mul (b f r q) (x (at3 (g_h g) (g_w g) c (i + r - g_p g) (j + q - g_p g)))) else acc)) old.
Definition gradb_val (g : geometry) (b : Z -> Z -> Z -> T) (f : Z) (old : T) : T :=
  zfold (spread_h g) (fun r => zfold (spread_w g) (fun q acc => add acc (b f r q))) old.
(** The delta passed on. *)
Definition cdelta_val (g : geometry) (W : Z -> Z -> T) (b : Z -> Z -> Z -> T) (c y z : Z) : T :=
  zfold (g_fh g) (fun i => zfold (g_fw g) (fun j sum =>
    let r := y + i - (g_fh g - 1) + g_p g in let q := z + j - (g_fw g - 1) + g_p g in
    if in_box (spread_h g) (spread_w g) r q
    then zfold (g_f g) (fun f sum => add sum (mul (W f (at3 (g_fh g) (g_fw g) c (g_fh g - 1 - i) (g_fw g - 1 - j))) (b f r q))) sum
    else sum)) zero.
End Values.
