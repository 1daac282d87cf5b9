(** * Model of /repo/include/Trixy/Lique/Linear.hpp (class lique::Linear)

    add/sub/mul/join/apply/assign (Linear.hpp:320-444) are one call each of the loops of
    Lique.v and are modelled there ([assign_src], [assign_lhs_rhs], [assign_val], ...). *)
From Verif Require Import Mem Scalar Lique.

Section Linear.
Context {T : Type} `{NT : Num T}.

(** [t(i) += x] *)
Definition vec_inc (t : tensor) (i : Z) (x : T) : M T unit :=
  let* o := tb_get t i in tb_set t i (add o x).

(** 45-64 [dot(result, row_vector, matrix)] *)
Definition lin_dot_vm (result row_vector matrix : tensor) : M T unit :=
  assign_val (t_data result) (t_size result) OpCpy zero ;;;
  mfor 0 (t_size row_vector) (fun i =>
    let* temp := tb_get row_vector i in
    mfor 0 (t_size result) (fun j =>
      let* o := tb_get result j in
      let* x := mat_get matrix i j in tb_set result j (add o (mul temp x)))).

(** 66-80 [dot(result, matrix, col_vector)] *)
Definition lin_dot_mv (result matrix col_vector : tensor) : M T unit :=
  assign_val (t_data result) (t_size result) OpCpy zero ;;;
  mfor 0 (t_size result) (fun i =>
    mfor 0 (t_size col_vector) (fun j =>
      let* o := tb_get result i in
      let* x := mat_get matrix i j in
      let* y := tb_get col_vector j in tb_set result i (add o (mul x y)))).

(** 82-102 [dot(result, lhs, rhs)]: note that [result] is not cleared *)
Definition lin_dot_mm (result lhs rhs : tensor) : M T unit :=
  mfor 0 (s_height (t_shape lhs)) (fun i =>
    mfor 0 (s_width (t_shape lhs)) (fun r =>
      let* buff := mat_get lhs i r in
      mfor 0 (s_width (t_shape rhs)) (fun j =>
        let* o := mat_get result i j in
        let* x := mat_get rhs r j in mat_set result i j (add o (mul buff x))))).

(** 104-139 [tensordot(result, col_vector, row_vector)]: the running pointer [dst] is
    [first(result) + i * block_size] at iteration [i].  [*c_first] is passed by reference;
    the model reads it once (the same, if [result] does not overlap [col_vector]). *)
Definition lin_tensordot (result col_vector row_vector : tensor) : M T unit :=
  mfor 0 (t_size col_vector) (fun i =>
    let* c := tb_get col_vector i in
    assign_val_src (padd (t_data result) (i * t_size row_vector)) (t_size row_vector) OpMul c
                   (t_data row_vector)).

(** 141-151 [transpose(result, matrix)] *)
Definition lin_transpose (result matrix : tensor) : M T unit :=
  mfor 0 (s_height (t_shape result)) (fun i =>
    mfor 0 (s_width (t_shape result)) (fun j =>
      let* x := mat_get matrix j i in mat_set result i j x)).

(** 153-210 [inverse(result, matrix)], in pieces *)
(** 167-169 *)
Definition inv_identity (result : tensor) (N : Z) : M T unit :=
  mfor 0 N (fun i => mfor 0 N (fun j => mat_set result i j (if i =? j then one else zero))).
(** 173-176 pivot search *)
Definition inv_pivot (matrix : tensor) (N k : Z) : M T Z :=
  mfold (k + 1) N (fun i p =>
    let* a := mat_get matrix p k in
    let* b := mat_get matrix i k in
    ret (if ltb (nabs a) (nabs b) then i else p)) k.
(** 180-185, 187-192: exchange of rows [k] and [p], columns [lo] to [N-1] *)
Definition inv_swap (t : tensor) (N k p lo : Z) : M T unit :=
  mfor lo N (fun j =>
    let* buff := mat_get t k j in
    let* y := mat_get t p j in
    mat_set t k j y ;;; mat_set t p j buff).
(** 197, 198: row [k] times [buff] *)
Definition inv_scale (t : tensor) (N k lo : Z) (buff : T) : M T unit :=
  mfor lo N (fun j => let* x := mat_get t k j in mat_set t k j (mul x buff)).
(** 206, 207: row [i] minus row [k] times [buff] *)
Definition inv_elim (t : tensor) (N i k lo : Z) (buff : T) : M T unit :=
  mfor lo N (fun j => let* x := mat_get t i j in let* y := mat_get t k j in
                      mat_set t i j (sub x (mul y buff))).
(** 171-209, one step *)
Definition inv_step (result matrix : tensor) (N k : Z) : M T unit :=
  let* p := inv_pivot matrix N k in
  (if p =? k then ret tt else inv_swap matrix N k p k ;;; inv_swap result N k p 0) ;;;
  let* d := mat_get matrix k k in
  let buff := div one d in
  inv_scale matrix N k k buff ;;;
  inv_scale result N k 0 buff ;;;
  mfor 0 N (fun i =>
    if i =? k then ret tt else
      let* buff := mat_get matrix i k in
      inv_elim matrix N i k k buff ;;;
      inv_elim result N i k 0 buff).
Definition lin_inverse (result matrix : tensor) : M T unit :=
  let N := s_height (t_shape matrix) in
  inv_identity result N ;;;
  mfor 0 N (fun k => inv_step result matrix N k).

(** 212-235 [dot(lhs, rhs)] of two flat ranges *)
Definition lin_dot_vv (lhs rhs : tensor) : M T T :=
  mfold 0 (t_size lhs) (fun i acc =>
    let* x := load (t_data lhs) i in
    let* y := load (t_data rhs) i in ret (add acc (mul x y))) zero.

(** Returning forms; the local result is returned by move / elision, which keeps its
    storage and shape. *)
(** 237-250 *)
Definition lin_dot_vm_ret (row_vector matrix : tensor) : M T tensor :=
  let* r := vec_new (s_width (t_shape matrix)) in lin_dot_vm r row_vector matrix ;;; ret r.
(** 252-265 *)
Definition lin_dot_mv_ret (matrix col_vector : tensor) : M T tensor :=
  let* r := vec_new (s_height (t_shape matrix)) in lin_dot_mv r matrix col_vector ;;; ret r.
(** 267-280 *)
Definition lin_dot_mm_ret (lhs rhs : tensor) : M T tensor :=
  let* r := mat_fill (s_height (t_shape lhs)) (s_width (t_shape rhs)) zero in
  lin_dot_mm r lhs rhs ;;; ret r.
(** 282-294 *)
Definition lin_tensordot_ret (col_vector row_vector : tensor) : M T tensor :=
  let* r := mat_new (t_size col_vector) (t_size row_vector) in
  lin_tensordot r col_vector row_vector ;;; ret r.
(** 296-306 *)
Definition lin_transpose_ret (matrix : tensor) : M T tensor :=
  let* r := mat_new (s_width (t_shape matrix)) (s_height (t_shape matrix)) in
  lin_transpose r matrix ;;; ret r.
(** 308-318; the result is built from the shape of [matrix] (Matrix.hpp:53-57) *)
Definition lin_inverse_ret (matrix : tensor) : M T tensor :=
  let* r := mat_shape_new (t_shape matrix) in
  lin_inverse r matrix ;;; ret r.
End Linear.
