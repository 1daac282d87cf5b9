(** * Layers as mathematical functions over the reals (specification) *)
From Coq Require Import Reals.
From Verif Require Import Mem Scalar Functions RealSpec ConvSpec.
Local Open Scope R_scope.

(** [y_j = a( sum_i x_i W_ij + B_j )], the [n] x [k] matrix [W] stored row by row. *)
Definition dense_pre (n k : Z) (B W x : Z -> R) (j : Z) : R := rsum n (fun i => x i * W (i * k + j)%Z) + B j.
Definition dense (a : scalar_activation) (n k : Z) (B W x : Z -> R) (j : Z) : R := std_act a (dense_pre n k B W x j).
(** the weighted sum of the outputs whose gradient is propagated *)
Definition weighted (k : Z) (d y : Z -> R) : R := rsum k (fun j => d j * y j).

(** Element (c, i, j) of an input of height [h] and width [w], zero outside. *)
Definition padded (h w : Z) (x : Z -> R) (c i j : Z) : R := if in_box h w i j then x (at3 h w c i j) else 0.
(** Padded strided cross-correlation: output (f, y, z); [W f]: filter number [f], stored flat. *)
Definition correlate_at (g : geometry) (B : Z -> R) (W : Z -> Z -> R) (x : Z -> R) (f y z : Z) : R :=
  B f + rsum (g_fh g) (fun i => rsum (g_fw g) (fun j => rsum (g_d g) (fun c =>
    padded (g_h g) (g_w g) x c (g_vs g * y + i - g_p g) (g_hs g * z + j - g_p g) * W f (at3 (g_fh g) (g_fw g) c i j)))).
(** The same, as a flat vector of [g_f * out_h * out_w] outputs. *)
Definition correlate (g : geometry) (B : Z -> R) (W : Z -> Z -> R) (x : Z -> R) (o : Z) : R :=
  correlate_at g B W x (o / out_w g / out_h g)%Z ((o / out_w g) mod out_h g)%Z (o mod out_w g)%Z.
