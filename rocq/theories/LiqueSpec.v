(** * Specification vocabulary for matrices and vectors (used in the statements) *)
From Verif Require Import Mem Scalar MemSpec Lique.

Section LiqueSpec.
Context {T : Type}.

(** A consistent [h] x [w] matrix object whose element count fits size_t. *)
Definition mat_is (t : tensor) (h w : Z) : Prop :=
  s_height (t_shape t) = h /\ s_width (t_shape t) = w /\ t_size t = h * w /\
  0 <= h /\ 0 <= w /\ h * w < 2 ^ 64.

(** The [h] x [w] elements stored row by row at [p] exist and are [f i j]. *)
Definition holds2 (m : mem T) (p : ptr) (h w : Z) (f : Z -> Z -> T) : Prop :=
  forall i j, 0 <= i < h -> 0 <= j < w -> elem m p (i * w + j) = Some (Some (f i j)).

(** Exactly the [h] x [w] elements at [dst] are set, to [f i j]. *)
Definition sets2 (dst : ptr) (h w : Z) (f : Z -> Z -> T) (m m' : mem T) : Prop :=
  holds2 m' dst h w f /\ only (inside dst (h * w)) m m'.

(** A consistent [d] x [h] x [w] tensor object. *)
Definition ten_is (t : tensor) (d h w : Z) : Prop :=
  s_depth (t_shape t) = d /\ s_height (t_shape t) = h /\ s_width (t_shape t) = w /\
  t_size t = d * h * w /\ 0 <= d /\ 0 <= h /\ 0 <= w /\ d * h * w < 2 ^ 64.
Definition holds3 (m : mem T) (p : ptr) (d h w : Z) (f : Z -> Z -> Z -> T) : Prop :=
  forall c i j, 0 <= c < d -> 0 <= i < h -> 0 <= j < w ->
    elem m p ((c * h + i) * w + j) = Some (Some (f c i j)).
Definition sets3 (dst : ptr) (d h w : Z) (f : Z -> Z -> Z -> T) (m m' : mem T) : Prop :=
  holds3 m' dst d h w f /\ only (inside dst (d * h * w)) m m'.

(** A new allocation of exactly [h]*[w] elements, holding [f i j]; nothing else happened. *)
Definition made2 (m : mem T) (h w : Z) (f : Z -> Z -> T) (p : ptr) (m' : mem T) : Prop :=
  p = Ptr (length m) 0 /\ live m' (length m) (h * w) /\ holds2 m' p h w f /\
  keeps (fun _ => False) m m' /\ length m' = S (length m).


(** A call that may allocate and release internally: every block of [m] is what it was. *)
Definition preserves (m m' : mem T) : Prop := keeps (fun _ => False) m m'.
End LiqueSpec.
