(** * Histories of owning tensor objects

    A program that creates, copies, moves, assigns, resizes, reshapes, swaps, fills and
    destroys Vector/Matrix/Tensor objects.  The state is the list of all objects ever created
    ([None] once destroyed) and the memory.  Every step calls the member functions modelled in
    Lique.v; see there for the source lines. *)
From Verif Require Import Mem Scalar Lique.

Inductive cls := CVec | CMat | CTen.

Notation obj := (option (cls * tensor)).

Section Lifecycle.
Context {T : Type} `{NT : Num T}.

Definition lstate := (list obj * mem T)%type.

Inductive lop :=
| LDefault (c : cls)                       (* X a;                  *)
| LNew (c : cls) (d h w : Z)               (* X a(dims);            *)
| LNewFill (c : cls) (d h w : Z) (x : T)   (* X a(dims, value);     *)
| LNewList (c : cls) (l : list T)          (* X a{...};  (Vector, Tensor) *)
| LCopyCtor (src : nat)                    (* X b(a);               *)
| LMoveCtor (src : nat)                    (* X b(std::move(a));    *)
| LCopyAssign (dst src : nat)              (* a = b;                *)
| LMoveAssign (dst src : nat)              (* a = std::move(b);     *)
| LResize (a : nat) (d h w : Z)
| LReshape (a : nat) (d h w : Z)
| LSwap (a b : nat)
| LFill (a : nat) (x : T)
| LDestroy (a : nat).

Definition cls_eqb (a b : cls) : bool :=
  match a, b with CVec, CVec | CMat, CMat | CTen, CTen => true | _, _ => false end.

(** one member function per class; vectors use [w], matrices [h] and [w] *)
Definition do_new (c : cls) (d h w : Z) : M T tensor :=
  match c with CVec => vec_new w | CMat => mat_new h w | CTen => ten_new d h w end.
Definition do_new_fill (c : cls) (d h w : Z) (x : T) : M T tensor :=
  match c with CVec => vec_fill w x | CMat => mat_fill h w x | CTen => ten_fill d h w x end.
Definition do_new_list (c : cls) (l : list T) : M T tensor :=
  match c with CVec => vec_of_list l | CMat => ret tb_default | CTen => ten_of_list l end.
Definition do_copy_ctor (c : cls) (src : tensor) : M T tensor :=
  match c with CVec => vec_copy_ctor src | CMat => mat_copy_ctor src | CTen => ten_copy_ctor src end.
Definition do_move_ctor (c : cls) (src : tensor) : tensor * tensor :=
  match c with CVec => vec_move_ctor src | CMat => mat_move_ctor src | CTen => ten_move_ctor src end.
Definition do_copy_assign (c : cls) (self : bool) (t src : tensor) : M T tensor :=
  match c with CVec => vec_copy_assign self t src | CMat => mat_copy_assign self t src
             | CTen => ten_copy_assign self t src end.
Definition do_move_assign (c : cls) (self : bool) (t src : tensor) : M T (tensor * tensor) :=
  match c with CVec => vec_move_assign self t src | CMat => mat_move_assign self t src
             | CTen => ten_move_assign self t src end.
Definition do_resize (c : cls) (t : tensor) (d h w : Z) : M T tensor :=
  match c with CVec => vec_resize t w | CMat => mat_resize t h w | CTen => ten_resize t d h w end.
Definition do_reshape (c : cls) (t : tensor) (d h w : Z) : tensor :=
  match c with CVec => vec_reshape t w | CMat => mat_reshape t h w | CTen => ten_reshape t d h w end.
Definition do_destroy (c : cls) (t : tensor) : M T unit :=
  match c with CVec => vec_destroy t | CMat => mat_destroy t | CTen => ten_destroy t end.

(** the live object [a], if any *)
Definition live_obj (e : list obj) (a : nat) : option (cls * tensor) :=
  match nth_error e a with Some (Some o) => Some o | _ => None end.

(** A step on a destroyed or not yet existing object, or mixing classes, is not a C++
    program; it is skipped. *)
Definition lstep (s : lstate) (o : lop) : res lstate :=
  let (e, m) := s in
  let push c (r : M T tensor) :=
    match r m with Ok (t, m') => Ok (e ++ [Some (c, t)], m') | UB k => UB k end in
  match o with
  | LDefault c => Ok (e ++ [Some (c, tb_default)], m)
  | LNew c d h w => push c (do_new c d h w)
  | LNewFill c d h w x => push c (do_new_fill c d h w x)
  | LNewList c l => push c (do_new_list c l)
  | LCopyCtor a =>
    match live_obj e a with Some (c, t) => push c (do_copy_ctor c t) | None => Ok s end
  | LMoveCtor a =>
    match live_obj e a with
    | Some (c, t) => let (n, t') := do_move_ctor c t in
                     Ok (set_nth a (Some (c, t')) e ++ [Some (c, n)], m)
    | None => Ok s end
  | LCopyAssign a b =>
    match live_obj e a, live_obj e b with
    | Some (c, t), Some (c', t') =>
      if cls_eqb c c' then
        match do_copy_assign c (Nat.eqb a b) t t' m with
        | Ok (n, m') => Ok (set_nth a (Some (c, n)) e, m') | UB k => UB k end
      else Ok s
    | _, _ => Ok s end
  | LMoveAssign a b =>
    match live_obj e a, live_obj e b with
    | Some (c, t), Some (c', t') =>
      if cls_eqb c c' then
        match do_move_assign c (Nat.eqb a b) t t' m with
        | Ok ((n, n'), m') => Ok (set_nth a (Some (c, n)) (set_nth b (Some (c', n')) e), m')
        | UB k => UB k end
      else Ok s
    | _, _ => Ok s end
  | LResize a d h w =>
    match live_obj e a with
    | Some (c, t) => match do_resize c t d h w m with
                     | Ok (n, m') => Ok (set_nth a (Some (c, n)) e, m') | UB k => UB k end
    | None => Ok s end
  | LReshape a d h w =>
    match live_obj e a with
    | Some (c, t) => Ok (set_nth a (Some (c, do_reshape c t d h w)) e, m)
    | None => Ok s end
  | LSwap a b =>
    match live_obj e a, live_obj e b with
    | Some (c, t), Some (c', t') =>
      let (n, n') := tb_swap t t' in
      Ok (set_nth a (Some (c, n)) (set_nth b (Some (c', n')) e), m)
    | _, _ => Ok s end
  | LFill a x =>
    match live_obj e a with
    | Some (c, t) => match tb_fill t x m with Ok (_, m') => Ok (e, m') | UB k => UB k end
    | None => Ok s end
  | LDestroy a =>
    match live_obj e a with
    | Some (c, t) => match do_destroy c t m with
                     | Ok (_, m') => Ok (set_nth a None e, m') | UB k => UB k end
    | None => Ok s end
  end.

Fixpoint lrun (ops : list lop) (s : lstate) : res lstate :=
  match ops with
  | [] => Ok s
  | o :: t => match lstep s o with Ok s' => lrun t s' | UB k => UB k end
  end.

(** destroy every object, in order of creation *)
Definition destroy_all (s : lstate) : list lop := map LDestroy (seq 0 (length (fst s))).
End Lifecycle.
Arguments lop : clear implicits.
