(** * Optimizers: what a training history is, and the textbook update rules (specification) *)
From Coq Require Import Reals Bool.
From Verif Require Import Mem Scalar MemSpec Optimizer RealSpec.
Open Scope Z_scope.

(** Names for the parameter tensors: any type with decidable equality. *)
Class Names (I : Type) := { same : I -> I -> bool; same_spec : forall i j, reflect (i = j) (same i j) }.
#[global] Instance names_nat : Names nat := {| same := Nat.eqb; same_spec := Nat.eqb_spec |}.

Section Hist.
Context {T : Type} `{NT : Num T} {Nm : Type} `{NI : Names Nm}.

(** The parameter tensors: tensor [k] has its [N k] elements at [P k]; [addr] gives machine addresses.
    Different tensors have different addresses and share no memory. *)
Definition distinct_tensors (addr : ptr -> Z) (P : Nm -> ptr) (N : Nm -> Z) : Prop :=
  (forall k k', addr (P k) = addr (P k') -> k = k') /\
  (forall k k', k <> k' -> disjoint (P k) (N k) (P k') (N k')) /\ (forall k, 0 <= N k).

(** The memory the optimizer keeps for the tensor at address [a]. *)
Definition opt_memory (o : opt T) (a : Z) : list ptr := [fst (o_buff o a); fst (o_m o a); fst (o_s o a)].

(** One call of [update]: on which tensor, with which learning rate in force and which gradient values. *)
Record call := mk_call { c_tensor : Nm; c_lr : T; c_grad : Z -> T }.

(** A gradient range: not overlapping a parameter tensor or the optimizer's own memory. *)
Definition separate_gradient (addr : ptr -> Z) (P : Nm -> ptr) (N : Nm -> Z) (o : opt T) (gp : ptr) (n : Z) : Prop :=
  (forall k, disjoint gp n (P k) (N k)) /\
  (forall k q, In q (opt_memory o (addr (P k))) -> disjoint gp n q (N k)).

(** Any use by a program of an optimizer [o0] created with learning rate [lr0]: updates of any tensors
    in any order with any gradients, changes of the learning rate, and anything else in between (forward
    passes, allocation, ...) that leaves the tensors and the optimizer's own memory alone.
    [history ... cs lr o m]: the calls [cs] were made, the rate last asked for is [lr], and the optimizer
    and the memory are now [o] and [m].  A call is recorded with the rate last asked for, whatever the
    optimizer itself remembers of it. *)
Inductive history (addr : ptr -> Z) (P : Nm -> ptr) (N : Nm -> Z) (lr0 : T) (o0 : opt T) (m0 : mem T)
  : list call -> T -> opt T -> mem T -> Prop :=
| h_start : history addr P N lr0 o0 m0 [] lr0 o0 m0
| h_update cs lr o m k gp g o' m' : history addr P N lr0 o0 m0 cs lr o m ->
    holds m gp (N k) g -> separate_gradient addr P N o gp (N k) ->
    opt_update addr o (P k, N k) (gp, N k) m = Ok (o', m') ->
    history addr P N lr0 o0 m0 (cs ++ [mk_call k lr g]) lr o' m'
| h_learning_rate cs lr o m lr' : history addr P N lr0 o0 m0 cs lr o m ->
    history addr P N lr0 o0 m0 cs lr' (set_learning_rate o lr') m
| h_other cs lr o m m' : history addr P N lr0 o0 m0 cs lr o m ->
    (forall k v, holds m (P k) (N k) v -> holds m' (P k) (N k) v) ->
    (forall k q, In q (opt_memory o (addr (P k))) -> room m q (N k) ->
       room m' q (N k) /\ forall v, holds m q (N k) v -> holds m' q (N k) v) ->
    history addr P N lr0 o0 m0 cs lr o m'.

(** The calls on tensor [k], as seen by its element [j]: (learning rate, gradient), oldest first. *)
Definition own_calls (k : Nm) (j : Z) (cs : list call) : list (T * T) :=
  map (fun c => (c_lr c, c_grad c j)) (filter (fun c => same (c_tensor c) k) cs).
(** The same with each call's position among all calls (from 1). *)
Fixpoint numbered {A} (n : nat) (l : list A) : list (nat * A) :=
  match l with [] => [] | x :: t => (n, x) :: numbered (S n) t end.
Definition own_numbered (k : Nm) (j : Z) (cs : list call) : list (nat * (T * T)) :=
  map (fun nc => (fst nc, (c_lr (snd nc), c_grad (snd nc) j))) (filter (fun nc => same (c_tensor (snd nc)) k) (numbered 1 cs)).
End Hist.
Arguments call T Nm : clear implicits.

(** Textbook rules on one parameter [w] over the reals; the state of the recursion is explicit. *)
Local Open Scope R_scope.
(** w <- w - lr*g *)
Fixpoint gd_rule (w : R) (l : list (R * R)) : R :=
  match l with [] => w | (lr, g) :: t => gd_rule (w - lr * g) t end.
(** w <- alpha*w - lr*g *)
Fixpoint sgd_rule (alpha w : R) (l : list (R * R)) : R :=
  match l with [] => w | (lr, g) :: t => sgd_rule alpha (alpha * w - lr * g) t end.
(** v <- mu*v - lr*g; w <- w + v *)
Fixpoint momentum_rule (mu w v : R) (l : list (R * R)) : R :=
  match l with [] => w | (lr, g) :: t => let v' := mu * v - lr * g in momentum_rule mu (w + v') v' t end.
(** v <- mu*v - lr*g; w <- w - lr*g + mu*v *)
Fixpoint nestorov_rule (mu w v : R) (l : list (R * R)) : R :=
  match l with [] => w | (lr, g) :: t => let v' := mu * v - lr * g in nestorov_rule mu (w - lr * g + mu * v') v' t end.
(** s <- s + g^2; w <- w - lr*g/sqrt(1e-9+s) *)
Fixpoint adagrad_rule (w s : R) (l : list (R * R)) : R :=
  match l with [] => w | (lr, g) :: t => let s' := s + g ^ 2 in adagrad_rule (w - lr * g / sqrt (eps9 + s')) s' t end.
(** s <- beta*s + (1-beta)*g^2; w <- w - lr*g/sqrt(1e-9+s) *)
Fixpoint rmsprop_rule (beta w s : R) (l : list (R * R)) : R :=
  match l with
  | [] => w
  | (lr, g) :: t => let s' := beta * s + (1 - beta) * g ^ 2 in rmsprop_rule beta (w - lr * g / sqrt (eps9 + s')) s' t
  end.
(** the [n]-th iteration: m <- b1*m + (1-b1)*g; s <- b2*s + (1-b2)*g^2;
    w <- w - lr * (m/(1-b1^n)) / sqrt(1e-9 + s/(1-b2^n)) *)
Fixpoint adam_rule (b1 b2 w m s : R) (l : list (nat * (R * R))) : R :=
  match l with
  | [] => w
  | (n, (lr, g)) :: t =>
      let m' := b1 * m + (1 - b1) * g in let s' := b2 * s + (1 - b2) * g ^ 2 in
      adam_rule b1 b2 (w - lr * (m' / (1 - b1 ^ n)) / sqrt (eps9 + s' / (1 - b2 ^ n))) m' s' t
  end.
