(** * Sessions: training calls interleaved with evaluation calls (specification for C107) *)
From Verif Require Import Mem Scalar MemSpec Lique Functions Optimizer OptimizerSpec Layer LayerSpec NetPlan Net PropNet Checker PropChecker OptTrainSpec.
Open Scope Z_scope.

Section Session.
Context {T : Type} `{NT : Num T}.
(** The calls a program makes on a trainer, its network and the checker. *)
Inductive call : Type :=
| Batch (epochs : Z)                                 (* trainer.batch(idata, odata, optimizer, epochs) *)
| MiniBatch (epochs size : Z)                        (* trainer.miniBatch(...) *)
| Stochastic (iterations : Z) (g : Z -> Z)           (* trainer.stochastic(..., generator) *)
| Predict (x : tensor)                               (* net(x) *)
| MeanLoss (vi vo : list tensor)                     (* trainer.loss(vi, vo) *)
| CheckLoss (lo : loss) (vi vo : list tensor)        (* check.loss(vi, vo, loss function) *)
| Accuracy (vi vo : list tensor)                     (* check.accuracy(vi, vo) *)
| AccuracyFull (vi vo : list tensor) (r : T)
| AccuracyGlobal (vi vo : list tensor) (r : T).
Definition is_training (c : call) : bool := match c with Batch _ | MiniBatch _ _ | Stochastic _ _ => true | _ => false end.
(** One call: the objects afterwards (the network's layers are changed only through memory and flags);
    the numbers that evaluation returns are dropped, C70 and C71 say what they are. *)
Definition do_call (addr : ptr -> Z) (t : trainer) (idata odata : list tensor) (c : call) (s : net * opt T) : M T (net * opt T) :=
  let '(N, o) := s in
  match c with
  | Batch E => tr_batch addr N t idata odata o E
  | MiniBatch E b => tr_mini_batch addr N t idata odata o E b
  | Stochastic k g => let* o' := tr_stochastic addr N t idata odata o k g in ret (N, o')
  | Predict x => let* _ := net_feedforward N x in ret s
  | MeanLoss vi vo => let* _ := tr_loss_mean N t vi vo in ret s
  | CheckLoss lo vi vo => let* _ := chk_loss N lo vi vo in ret s
  | Accuracy vi vo => let* _ := acc_normal N vi vo in ret s
  | AccuracyFull vi vo r => let* _ := acc_full N vi vo r in ret s
  | AccuracyGlobal vi vo r => let* _ := acc_global N vi vo r in ret s
  end.
Fixpoint do_calls addr t idata odata (cs : list call) (s : net * opt T) : M T (net * opt T) :=
  match cs with
  | [] => ret s
  | c :: cs => let* s' := do_call addr t idata odata c s in do_calls addr t idata odata cs s'
  end.
(** memory that belongs neither to the network, nor to the trainer, nor to the optimizer *)
Definition apart_from (addr : ptr -> Z) (l : list (node T)) (t : trainer) (o : opt T) (q : ptr) (c : Z) : Prop :=
  net_outside l q /\ disjoint (t_data (tr_delta t)) (t_size (tr_delta t)) q c /\ off_optimizer addr l o q c.
(** A data set for evaluation: samples the network accepts with as many target values as outputs. *)
Definition eval_data (addr : ptr -> Z) (m : mem T) (l : list (node T)) (t : trainer) (o : opt T) (vi vo : list tensor) : Prop :=
  exists k vx vy, 0 <= k /\ has_outputs l k /\ data_at m l (Z.of_nat (length vo)) k vi vo vx vy /\
    (forall i x, 0 <= i < Z.of_nat (length vo) -> znth vi i = Some x -> apart_from addr l t o (t_data x) (t_size x)) /\
    (forall i y, 0 <= i < Z.of_nat (length vo) -> znth vo i = Some y -> apart_from addr l t o (t_data y) k).
(** The arguments of a call are as documented. *)
Definition call_ok (addr : ptr -> Z) (m : mem T) (l : list (node T)) (t : trainer) (o : opt T) (c : call) : Prop :=
  match c with
  | Batch E => 0 <= E
  | MiniBatch E b => 0 <= E /\ 0 < b
  | Stochastic k g => 0 <= k /\ forall i, 0 <= g i < 2 ^ 64
  | Predict x => (exists v, sample_at m l x v) /\ apart_from addr l t o (t_data x) (t_size x)
  | MeanLoss vi vo | CheckLoss _ vi vo | Accuracy vi vo | AccuracyFull vi vo _ => eval_data addr m l t o vi vo
  | AccuracyGlobal vi vo _ => eval_data addr m l t o vi vo /\ vo <> []
  end.
End Session.
Arguments call : clear implicits.
