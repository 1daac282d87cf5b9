(** * Specification vocabulary for training: what a training run does, as a list of events *)
From Verif Require Import Mem Scalar Lique Functions Optimizer Layer Net.
Open Scope Z_scope.

(** One action of a training run.  [Backprop i j]: gradients for input [i] and target [j]. *)
Inductive event (T : Type) :=
| Reset | Feed (input : Z) | Backprop (input target : Z) | Accumulate | Update (alpha : T).
Arguments Reset {T}. Arguments Feed {T}. Arguments Backprop {T}. Arguments Accumulate {T}. Arguments Update {T}.
(** lo, lo+1, ..., hi-1 *)
Definition zrange (lo hi : Z) : list Z := map (fun k => lo + Z.of_nat k) (seq 0 (Z.to_nat (hi - lo))).

Section Schedule.
Context {T : Type} `{NT : Num T}.
(** The effect of one event on the network and the optimizer: reset(), accumulate(), update(opt, alpha)
    of every layer, in order; feedforward(idata[i]); backprop(idata[i], odata[j]). *)
Definition run_event (addr : ptr -> Z) (t : trainer) (idata odata : list tensor) (e : event T) (st : net * opt T) : M T (net * opt T) :=
  let (N, o) := st in
  match e with
  | Reset => let* N := mmap l_reset N in ret (N, o)
  | Accumulate => let* N := mmap l_accumulate N in ret (N, o)
  | Feed i => let* x := nth_of idata i in net_feedforward N x ;;; ret (N, o)
  | Backprop i j => let* x := nth_of idata i in let* y := nth_of odata j in tr_backprop N t x y ;;; ret (N, o)
  | Update alpha => let* o := mlist N (fun L o => l_update addr L o alpha) o in ret (N, o)
  end.
Fixpoint run (addr : ptr -> Z) (t : trainer) (idata odata : list tensor) (es : list (event T)) (st : net * opt T) : M T (net * opt T) :=
  match es with [] => ret st | e :: es => let* st := run_event addr t idata odata e st in run addr t idata odata es st end.

(** Sample [i] with its own target, gradients added to the accumulators *)
Definition present (i : Z) : list (event T) := [Feed i; Backprop i i; Accumulate].
(** One update of the averaged gradients of the samples [is] *)
Definition round (is : list Z) : list (event T) := Reset :: flat_map present is ++ [Update (div one (ofZ (Z.of_nat (length is))))].
(** One step on sample [i] *)
Definition step_on (i : Z) : list (event T) := [Feed i; Backprop i i; Update one].
(** [E] epochs of one round with all [n] samples in order *)
Definition batch_schedule (n E : Z) : list (event T) := concat (repeat (round (zrange 0 n)) (Z.to_nat E)).
(** [E] epochs of floor(n/b) rounds, each with the next [b] samples *)
Definition mini_batch_schedule (n b E : Z) : list (event T) :=
  concat (repeat (flat_map (fun k => round (zrange (k * b) (k * b + b))) (zrange 0 (n / b))) (Z.to_nat E)).
(** [S] steps, the i-th on sample g(i) mod n *)
Definition stochastic_schedule (n S : Z) (g : Z -> Z) : list (event T) := flat_map (fun i => step_on (g i mod n)) (zrange 0 S).
(** the inputs presented, in order *)
Definition presented (es : list (event T)) : list Z := flat_map (fun e => match e with Feed i => [i] | _ => [] end) es.
End Schedule.
