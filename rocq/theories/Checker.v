(** * Model of /repo/include/Trixy/Neuro/Checker/Accuracy.hpp and Core.hpp, for a TrixyNet

    Results are declared double in the source; here they are of the scalar type.  Counters are
    size_t, taken as unbounded (they never exceed the amount of data). *)
From Verif Require Import Mem Scalar Lique Functions Optimizer Layer Net.
Open Scope Z_scope.

Section Checker.
Context {T : Type} `{NT : Num T}.
(** Accuracy.hpp:95-97, 99-101: the index of the largest element found by the loop *)
Definition guide_max (n : Z) (p : ptr) : M T Z :=
  mfold 1 n (fun j best =>
    let* a := load p best in
    let* b := load p j in
    ret (if ltb a b then j else best)) 0.
(** Accuracy.hpp:85-104 *)
Definition guide_normal (target prediction : tensor) : M T bool :=
  let* max_true_out := guide_max (t_size target) (t_data target) in
  let* max_pred_out := guide_max (t_size target) (t_data prediction) in
  ret (max_true_out =? max_pred_out).
(** Accuracy.hpp:106-116; the early return is a flag that makes the remaining iterations do nothing *)
Definition guide_full (target prediction : tensor) (range_rate : T) : M T bool :=
  mfold 0 (t_size target) (fun j ok =>
    if ok : bool then
      let* a := load (t_data target) j in
      let* b := load (t_data prediction) j in
      ret (negb (ltb range_rate (nabs (sub a b))))
    else ret false) true.
(** Accuracy.hpp:118-129 *)
Definition guide_global (target prediction : tensor) (range_rate : T) : M T Z :=
  mfold 0 (t_size target) (fun i count =>
    let* a := load (t_data target) i in
    let* b := load (t_data prediction) i in
    ret (if ltb (nabs (sub a b)) range_rate then count + 1 else count)) 0.
(** Accuracy.hpp:33-44 *)
Definition acc_normal (N : net) (idata odata : list tensor) : M T T :=
  let n := Z.of_nat (length odata) in
  let* count := mfold 0 n (fun i count =>
    let* x := nth_of idata i in
    let* y := net_feedforward N x in
    let* z := nth_of odata i in
    let* b := guide_normal z y in
    ret (if b : bool then count + 1 else count)) 0 in
  ret (div (ofZ count) (ofZ n)).
(** Accuracy.hpp:46-58 *)
Definition acc_full (N : net) (idata odata : list tensor) (range_rate : T) : M T T :=
  let n := Z.of_nat (length odata) in
  let* count := mfold 0 n (fun i count =>
    let* x := nth_of idata i in
    let* y := net_feedforward N x in
    let* z := nth_of odata i in
    let* b := guide_full z y range_rate in
    ret (if b : bool then count + 1 else count)) 0 in
  ret (div (ofZ count) (ofZ n)).
(** Accuracy.hpp:60-71; [front()] of an empty container is undefined *)
Definition acc_global (N : net) (idata odata : list tensor) (range_rate : T) : M T T :=
  let n := Z.of_nat (length odata) in
  let* count := mfold 0 n (fun i count =>
    let* x := nth_of idata i in
    let* y := net_feedforward N x in
    let* z := nth_of odata i in
    let* c := guide_global z y range_rate in
    ret (count + c)) 0 in
  let* z := nth_of odata 0 in
  ret (div (ofZ count) (ofZ (u64 (n * t_size z)))).
(** Core.hpp:37-53 [Checker::loss(idata, odata, loss_function)] *)
Definition chk_loss (N : net) (l : loss) (idata odata : list tensor) : M T T :=
  let n := Z.of_nat (length odata) in
  let* result := mfold 0 n (fun i result =>
    let* x := nth_of idata i in
    let* y := net_feedforward N x in
    let* z := nth_of odata i in
    let* error := loss_f l (t_size z) (t_data z) (t_data y) in
    ret (add result error)) zero in
  ret (div result (ofZ n)).
(** Core.hpp:55-64 [Checker::loss(sample, target, loss_function)] *)
Definition chk_loss1 (N : net) (l : loss) (sample target : tensor) : M T T :=
  let* y := net_feedforward N sample in
  loss_f l (t_size target) (t_data target) (t_data y).
End Checker.
