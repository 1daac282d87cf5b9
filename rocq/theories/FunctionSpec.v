(** * Closed forms of activations and losses (specification vocabulary)

    What a range function should leave in element [i] of its result, as a function of the
    input values. *)
From Verif Require Import Mem Scalar Functions.

(** [g (n-1) (... (g 1 (g 0 a)))] *)
Fixpoint gfold {A : Type} (n : nat) (g : Z -> A -> A) (a : A) : A :=
  match n with O => a | S k => g (Z.of_nat k) (gfold k g a) end.
Definition zfold {A : Type} (n : Z) (g : Z -> A -> A) (a : A) : A := gfold (Z.to_nat n) g a.

Section Spec.
Context {T : Type} `{NT : Num T}.

(** the maximum found by scanning [x 0 .. x (n-1)] with [<] *)
Definition vmax (n : Z) (x : Z -> T) : T :=
  zfold (n - 1) (fun i max => if ltb max (x (i + 1)) then x (i + 1) else max) (x 0).

(** element [i] of activation.f(x) and activation.df(x), [x] of length [n] *)
Definition act_val (a : activation) (n : Z) (x : Z -> T) (i : Z) : T :=
  match a with
  | Scalar s => scalar_f s (x i)
  | SoftMax => mul (nexp (sub (x i) (vmax n x))) (div one (zsum n (fun j => nexp (sub (x j) (vmax n x)))))
  end.
Definition act_dval (a : activation) (x : Z -> T) (i : Z) : T :=
  match a with Scalar s => scalar_df s (x i) | SoftMax => one end.

(** loss.f(t, p) *)
Definition loss_val (l : loss) (n : Z) (t p : Z -> T) : T :=
  match l with
  | MSE => mul (zsum n (fun i => mul (sub (t i) (p i)) (sub (t i) (p i)))) half
  | MAE => zsum n (fun i => nabs (sub (p i) (t i)))
  | CCE => zfold n (fun i acc => sub acc (mul (t i) (nlog (add (p i) epsilon)))) zero
  | BCE => zfold n (fun i acc => sub acc (add (mul (t i) (nlog (add (p i) epsilon)))
                                              (mul (sub one (t i)) (nlog1p (sub epsilon (p i)))))) zero
  | MSLE => mul (zsum n (fun i => mul (nlog (div (add (p i) one) (add (t i) one)))
                                       (nlog (div (add (p i) one) (add (t i) one))))) half
  | NLL => opp (nlog (zsum n (fun i => mul (t i) (p i))))
  | LC => zsum n (fun i => nlog (ncosh (sub (p i) (t i))))
  end.
(** element [i] of loss.df(t, p) *)
Definition loss_dval (l : loss) (t p : Z -> T) (i : Z) : T :=
  match l with
  | MSE | CCE | NLL => sub (p i) (t i)
  | MAE => if ltb (sub (t i) (p i)) zero then opp one else if ltb zero (sub (t i) (p i)) then one else zero
  | BCE => add (mul (t i) (sub (p i) one)) (mul (p i) (sub one (t i)))
  | MSLE => div (nlog (div (add (p i) one) (add (t i) one))) (add (p i) one)
  | LC => ntanh (sub (p i) (t i))
  end.
End Spec.
