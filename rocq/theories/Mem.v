(** * Memory, undefined behaviour, and the program monad

    This file is not a model of a particular file of /repo: it is the part of the C++
    semantics every modelled function relies on (raw arrays obtained by [new T[n]],
    released by [delete[]], accessed through pointers), with undefined behaviour as a
    distinct outcome. *)
From Coq Require Export ZArith List Lia Bool.
Export ListNotations.
Open Scope Z_scope.

(** Kinds of undefined behaviour (and of failures that abort the modelled call). *)
Inductive ub : Type :=
| NullDeref      (* dereference of a null pointer *)
| OutOfBounds    (* access outside the block *)
| UninitRead     (* read of an element that was never written *)
| UseAfterFree   (* access to, or use of, a released block *)
| BadFree        (* delete[] of something that is not a live block start *)
| BadCall.       (* other precondition violation, e.g. layer index out of range *)

Inductive res (A : Type) : Type :=
| Ok (a : A)
| UB (k : ub).
Arguments Ok {A} a.
Arguments UB {A} k.

(** A cell is uninitialised ([None]) or holds a value; a block is freed ([None]) or a
    list of cells; the memory is the list of all blocks allocated so far, in order. *)
Notation block T := (option (list (option T))) (only parsing).
Definition mem (T : Type) := list (block T).

Inductive ptr : Type :=
| Null
| Ptr (b : nat) (o : Z).

Definition ptr_eqb (p q : ptr) : bool :=
  match p, q with
  | Null, Null => true
  | Ptr b o, Ptr b' o' => Nat.eqb b b' && Z.eqb o o'
  | _, _ => false
  end.

(** Pointer arithmetic [p + k]. Simplification: forming a pointer outside the block is not
    flagged, only accessing through it. [nullptr + k] stays null. *)
Definition padd (p : ptr) (k : Z) : ptr :=
  match p with Null => Null | Ptr b o => Ptr b (o + k) end.

Definition M (T A : Type) := mem T -> res (A * mem T).

Definition ret {T A} (a : A) : M T A := fun m => Ok (a, m).
Definition bind {T A B} (c : M T A) (f : A -> M T B) : M T B :=
  fun m => match c m with Ok (a, m') => f a m' | UB k => UB k end.
Definition fail {T A} (k : ub) : M T A := fun _ => UB k.

Notation "'let*' x := c 'in' f" := (bind c (fun x => f))
  (at level 61, x pattern, c at next level, f at level 200, right associativity).
Notation "c1 ';;;' c2" := (bind c1 (fun _ => c2)) (at level 62, right associativity).

Definition znth {A} (l : list A) (i : Z) : option A :=
  if 0 <=? i then nth_error l (Z.to_nat i) else None.

Fixpoint set_nth {A} (n : nat) (x : A) (l : list A) : list A :=
  match n, l with
  | _, [] => []
  | O, _ :: t => x :: t
  | S n', h :: t => h :: set_nth n' x t
  end.

(** [*(p + i)] as an rvalue *)
Definition load {T} (p : ptr) (i : Z) : M T T := fun m =>
  match p with
  | Null => UB NullDeref
  | Ptr b o =>
    match nth_error m b with
    | Some (Some l) =>
      match znth l (o + i) with
      | Some (Some x) => Ok (x, m)
      | Some None => UB UninitRead
      | None => UB OutOfBounds
      end
    | _ => UB UseAfterFree
    end
  end.

(** [*(p + i) = x] *)
Definition store {T} (p : ptr) (i : Z) (x : T) : M T unit := fun m =>
  match p with
  | Null => UB NullDeref
  | Ptr b o =>
    match nth_error m b with
    | Some (Some l) =>
      match znth l (o + i) with
      | Some _ => Ok (tt, set_nth b (Some (set_nth (Z.to_nat (o + i)) (Some x) l)) m)
      | None => UB OutOfBounds
      end
    | _ => UB UseAfterFree
    end
  end.

(** [new T[n]] for a scalar [T]: fresh block, elements uninitialised. Never fails
    (simplification: no [std::bad_alloc]). *)
Definition alloc {T} (n : Z) : M T ptr := fun m =>
  Ok (Ptr (length m) 0, m ++ [Some (repeat None (Z.to_nat n))]).

(** [delete[] p] *)
Definition free {T} (p : ptr) : M T unit := fun m =>
  match p with
  | Null => Ok (tt, m)
  | Ptr b o =>
    match nth_error m b with
    | Some (Some _) => if o =? 0 then Ok (tt, set_nth b None m) else UB BadFree
    | _ => UB BadFree
    end
  end.

(** Loops. [mfor lo hi body] is [for (i = lo; i < hi; ++i) body(i)];
    [mfold] threads a local accumulator through the loop. *)
Fixpoint mfold_n {T A} (n : nat) (i : Z) (body : Z -> A -> M T A) (a : A) : M T A :=
  match n with
  | O => ret a
  | S n' => let* a' := body i a in mfold_n n' (i + 1) body a'
  end.
Definition mfold {T A} (lo hi : Z) (body : Z -> A -> M T A) (a : A) : M T A :=
  mfold_n (Z.to_nat (hi - lo)) lo body a.
Definition mfor {T} (lo hi : Z) (body : Z -> M T unit) : M T unit :=
  mfold lo hi (fun i _ => body i) tt.

(** iterate over a list of things (range-for) *)
Fixpoint mlist {T A B} (l : list A) (body : A -> B -> M T B) (b : B) : M T B :=
  match l with
  | [] => ret b
  | x :: t => let* b' := body x b in mlist t body b'
  end.

(** size_t arithmetic *)
Definition two64 : Z := 2 ^ 64.
Definition u64 (z : Z) : Z := z mod two64.
