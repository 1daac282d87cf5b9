(** * Model of /repo/include/Trixy/Neuro/Network/UnifiedNet.hpp (TrixyNet) and
    /repo/include/Trixy/Neuro/Training/UnifiedNet.hpp (Training)

    A net is the list of the layers its container [inner_] points to; [inner_[i]] outside the
    container is undefined behaviour ([nth_of] fails).  Containers of samples are lists of tensors.
    Layers change their [accumulated_] flag, so the training operations return the new net; the
    optimizer object is threaded in the same way.  [addr] gives machine addresses (Optimizer.v).
    Not modelled here: construction, copy and destruction of nets (Copying.v), [remove] and
    [Training::update] (they do not compile when instantiated). *)
From Verif Require Import Mem Scalar Lique Functions Optimizer Layer.
Open Scope Z_scope.

Section Net.
Context {T : Type} `{NT : Num T}.
Definition net := list layer.
(** UnifiedNet.hpp:98 [size()] *)
Definition net_size (N : net) : Z := Z.of_nat (length N).
(** 76-80 [add(layer)] *)
Definition net_add (N : net) (L : layer) : net := N ++ [L].
(** 100-108 *)
Definition net_feedforward (N : net) (sample : tensor) : M T tensor :=
  let* L0 := nth_of N 0 in
  l_forward L0 sample ;;;
  mfor 1 (net_size N) (fun i =>
    let* L := nth_of N i in
    let* P := nth_of N (i - 1) in
    l_forward L (l_value P)) ;;;
  let* L := nth_of N (u64 (net_size N - 1)) in
  ret (l_value L).

(** Training/UnifiedNet.hpp:52-57: the members besides the reference to the net *)
Record trainer := mk_trainer { tr_delta : tensor; tr_loss : option loss }.
(** 59-62; [back()] of an empty container is undefined *)
Definition tr_new (N : net) : M T trainer :=
  let* L := nth_of N (u64 (net_size N - 1)) in
  let* d := ten_shape_new (l_osize L) in
  ret (mk_trainer d None).
(** 176-180 [loss(ILoss* )] (deleting the previous loss object is not modelled) *)
Definition tr_set_loss (t : trainer) (l : loss) : trainer := mk_trainer (tr_delta t) (Some l).
Definition with_loss {A} (o : option loss) (k : loss -> M T A) : M T A :=
  match o with Some l => k l | None => fail NullDeref end.
(** 156-159 *)
Definition tr_feedforward (N : net) (sample : tensor) : M T unit := net_feedforward N sample ;;; ret tt.
(** 161-174; indices in size_t *)
Definition tr_backprop (N : net) (t : trainer) (sample target : tensor) : M T unit :=
  let n := net_size N in
  (let* L := nth_of N (u64 (n - 1)) in
   with_loss (tr_loss t) (fun l =>
     loss_df l (t_data (tr_delta t)) (t_size (tr_delta t)) (t_data target) (t_data (l_value L)))) ;;;
  (let* L := nth_of N (u64 (n - 1)) in
   let* P := nth_of N (u64 (n - 2)) in
   l_backward L (l_value P) (tr_delta t) true) ;;;
  mfor 0 (u64 (n - 2)) (fun k =>
    let i := u64 (n - 2) - k in
    let* L := nth_of N i in
    let* P := nth_of N (i - 1) in
    let* Q := nth_of N (i + 1) in
    let* d := l_delta Q in
    l_backward L (l_value P) d true) ;;;
  (let* L := nth_of N 0 in
   let* Q := nth_of N 1 in
   let* d := l_delta Q in
   l_backward L sample d false).
(** 218-221 *)
Definition tr_updating (addr : ptr -> Z) (N : net) (o : opt T) (alpha : T) : M T (opt T) :=
  mfold 0 (net_size N) (fun i o => let* L := nth_of N i in l_update addr L o alpha) o.
(** 223-226, 228-231: [layer(i).reset()], [layer(i).accumulate()] for each i in order *)
Definition tr_reseting (N : net) : M T net := mmap (T := T) l_reset N.
Definition tr_accumulating (N : net) : M T net := mmap (T := T) l_accumulate N.
(** one sample: 84-85, 104-105, 139-140 *)
Definition tr_sample (N : net) (t : trainer) (idata odata : list tensor) (sample : Z) : M T unit :=
  (let* x := nth_of idata sample in tr_feedforward N x) ;;;
  let* x := nth_of idata sample in
  let* y := nth_of odata sample in
  tr_backprop N t x y.
(** 73-90; [g i]: value of the i-th call of the generator, converted to size_t; % 0 is undefined *)
Definition tr_stochastic (addr : ptr -> Z) (N : net) (t : trainer) (idata odata : list tensor) (o : opt T)
    (iteration_scale : Z) (g : Z -> Z) : M T (opt T) :=
  let n := Z.of_nat (length idata) in
  mfold 0 iteration_scale (fun iteration o =>
    if n =? 0 then fail BadCall else
    let sample := u64 (g iteration) mod n in
    tr_sample N t idata odata sample ;;;
    tr_updating addr N o one) o.
(** 92-113 ([alpha] is computed in double and rounded to the precision: one division here) *)
Definition tr_batch (addr : ptr -> Z) (N : net) (t : trainer) (idata odata : list tensor) (o : opt T)
    (number_of_epochs : Z) : M T (net * opt T) :=
  let n := Z.of_nat (length idata) in
  let alpha := div one (ofZ n) in
  mfold 0 number_of_epochs (fun _ st =>
    let* N := tr_reseting (fst st) in
    let* N := mfold 0 n (fun sample N =>
      tr_sample N t idata odata sample ;;;
      tr_accumulating N) N in
    let* o := tr_updating addr N (snd st) alpha in
    ret (N, o)) (N, o).
(** 115-154; the state of the loops is (net, optimizer, sample, sample_limit) *)
Definition tr_mini_batch (addr : ptr -> Z) (N : net) (t : trainer) (idata odata : list tensor) (o : opt T)
    (number_of_epochs mini_batch_size : Z) : M T (net * opt T) :=
  let n := Z.of_nat (length idata) in
  let alpha := div one (ofZ mini_batch_size) in
  if mini_batch_size =? 0 then fail BadCall else
  let iteration_scale := n / mini_batch_size in
  mfold 0 number_of_epochs (fun _ st =>
    let* st := mfold 0 iteration_scale (fun _ (st : net * opt T * Z * Z) =>
      let '(N, o, sample, sample_limit) := st in
      let sample_limit := u64 (sample_limit + mini_batch_size) in
      let* N := tr_reseting N in
      let* N := mfold sample sample_limit (fun sample N =>
        tr_sample N t idata odata sample ;;;
        tr_accumulating N) N in
      let sample := Z.max sample sample_limit in
      let* o := tr_updating addr N o alpha in
      ret (N, o, sample, sample_limit)) (fst st, snd st, 0, 0) in
    let '(N, o, _, _) := st in
    ret (N, o)) (N, o).
(** 194-208 [loss(idata, odata)]; the quotient is computed in double *)
Definition tr_loss_mean (N : net) (t : trainer) (idata odata : list tensor) : M T T :=
  let n := Z.of_nat (length odata) in
  let* result := mfold 0 n (fun i result =>
    let* x := nth_of idata i in
    let* y := net_feedforward N x in
    let* z := nth_of odata i in
    let* error := with_loss (tr_loss t) (fun l => loss_f l (t_size z) (t_data z) (t_data y)) in
    ret (add result error)) zero in
  ret (div result (ofZ n)).
End Net.
