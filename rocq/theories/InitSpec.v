(** * Specification vocabulary for initialisation: the values a generator returns, the parameters of a network in order *)
From Verif Require Import Mem Scalar Lique Layer LayerSpec ConvSpec NetPlan Schedule.
Open Scope Z_scope.

(** A generator as in Init.v: [S] belongs to the function object, [G] is shared by its copies.
    [states call n s g]: both states after [n] calls; [draw call s g i]: the value of call number [i] (from 0);
    [shared_after call s g n]: the shared state after [n] calls. *)
Section Draws.
Context {T S G : Type} (call : S -> G -> T * (S * G)).
Fixpoint states (n : nat) (s : S) (g : G) : S * G :=
  match n with O => (s, g) | Datatypes.S n => let st := states n s g in snd (call (fst st) (snd st)) end.
Definition draw (s : S) (g : G) (i : Z) : T := let st := states (Z.to_nat i) s g in fst (call (fst st) (snd st)).
Definition shared_after (s : S) (g : G) (n : Z) : G := snd (states (Z.to_nat n) s g).
End Draws.
(** [n] times [f] *)
Fixpoint iterate {A} (f : A -> A) (n : nat) (a : A) : A := match n with O => a | S n => f (iterate f n a) end.

Section InitSpec.
Context {T : Type}.
Implicit Types (d : node T) (l : list (node T)).
(** The parameter tensors a layer initialises, in order: bias, then weights (dense); filters, then bias
    (convolution); none for pooling and for the Raw dense class. *)
Definition init_roles (d : node T) : list role :=
  match n_layer d, n_plan d with
  | LFC _, _ => [RB; RW 0]
  | LConv _, PConv g | LXConv _, PConv g => map RW (zrange 0 (g_f g)) ++ [RB]
  | _, _ => []
  end.
(** ... of a network: (layer number, role). *)
Fixpoint init_list (k : nat) l : list (nat * role) :=
  match l with [] => [] | d :: l => map (fun r => (k, r)) (init_roles d) ++ init_list (S k) l end.
(** number of elements of a parameter tensor *)
Definition role_count (p : plan) (r : role) : Z :=
  match p, r with
  | PDense _ n k, RB => k | PDense _ n k, RW _ => n * k
  | PConv g, RB => g_f g | PConv g, RW _ => g_d g * g_fh g * g_fw g
  | _, _ => 0
  end.
Definition param_count l (kr : nat * role) : Z := match nth_error l (fst kr) with Some d => role_count (n_plan d) (snd kr) | None => 0 end.
Definition total l (ks : list (nat * role)) : Z := fold_right (fun kr n => param_count l kr + n) 0 ks.
(** what the tensor [r] of layer [k] holds *)
Definition param_of l (kr : nat * role) : Z -> T -> Prop :=
  fun i x => exists d, nth_error l (fst kr) = Some d /\ n_data d (snd kr) i = x.
End InitSpec.
(** the shared state once the tensors [ks] of the network [l] have been filled, one after the other, each by a new copy of the generator in state [s] *)
Definition shared_at {T S G : Type} (call : S -> G -> T * (S * G)) (l : list (node T)) (s : S) (g : G) (ks : list (nat * role)) : G :=
  fold_left (fun g kr => shared_after call s g (param_count l kr)) ks g.
