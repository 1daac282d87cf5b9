(** * Model of /repo/include/Trixy/Container/Container.hpp

    The heap cells hold objects of [value_type]: [None] is raw storage, [Some x] a constructed
    object with value [x].  Instrumentation (stricter than C++): placement new over a
    constructed object, destroying raw storage, and releasing storage that still holds
    constructed objects (a leak) are reported as [BadCall] / [BadFree], so a theorem [= Ok _]
    excludes them.  Simplifications: [sizeof(value_type) * n] and [capacity_ * 2 + 1] do not
    wrap, allocation and the element constructors do not throw. *)
From Verif Require Import Mem.

Section Container.
Context {T : Type}.
(** [moved x]: value left in an object of value [x] after it was moved from; [dflt]: value of
    [value_type()] *)
Variables (moved : T -> T) (dflt : T).

(** 38-40 data members *)
Record container := mk_cont { c_data : ptr; c_size : Z; c_cap : Z }.

(** [new (p + i) value_type(x)] *)
Definition construct (p : ptr) (i : Z) (x : T) : M T unit := fun m =>
  match p with
  | Null => UB NullDeref
  | Ptr b o =>
    match nth_error m b with
    | Some (Some l) =>
      match znth l (o + i) with
      | Some None => Ok (tt, set_nth b (Some (set_nth (Z.to_nat (o + i)) (Some x) l)) m)
      | Some (Some _) => UB BadCall
      | None => UB OutOfBounds
      end
    | _ => UB UseAfterFree
    end
  end.
(** [p[i].~value_type()] *)
Definition destruct_at (p : ptr) (i : Z) : M T unit := fun m =>
  match p with
  | Null => UB NullDeref
  | Ptr b o =>
    match nth_error m b with
    | Some (Some l) =>
      match znth l (o + i) with
      | Some (Some _) => Ok (tt, set_nth b (Some (set_nth (Z.to_nat (o + i)) None l)) m)
      | Some None => UB BadCall
      | None => UB OutOfBounds
      end
    | _ => UB UseAfterFree
    end
  end.
(** [std::move(p[i])] as a constructor argument *)
Definition move_from (p : ptr) (i : Z) : M T T :=
  let* x := load p i in store p i (moved x) ;;; ret x.
(** 219-226 [allocate(n)] is [alloc n]; 228-231 [deallocate(p)] *)
Definition deallocate (p : ptr) : M T unit := fun m =>
  match p with
  | Null => Ok (tt, m)
  | Ptr b o =>
    match nth_error m b with
    | Some (Some l) =>
      if (o =? 0) && forallb (fun c => match c with None => true | Some _ => false end) l
      then Ok (tt, set_nth b None m) else UB BadFree
    | _ => UB BadFree
    end
  end.
(** 233-242 [destroy(p + lo, p + hi)]; the null test is on [p + lo], so it only helps for [lo = 0] *)
Definition destroy (p : ptr) (lo hi : Z) : M T unit :=
  match p, lo with
  | Null, 0 => ret tt
  | _, _ => mfor lo hi (fun i => destruct_at p i)
  end.

(** 43 *) Definition cont_default : container := mk_cont Null 0 0.
(** 45-49 *)
Definition cont_destroy (c : container) : M T unit :=
  destroy (c_data c) 0 (c_size c) ;;; deallocate (c_data c).
(** 51-58 *)
Definition cont_sized (n : Z) : M T container :=
  let* p := alloc n in
  mfor 0 n (fun i => construct p i dflt) ;;; ret (mk_cont p n n).
(** 60-67: storage for [size_] elements, but capacity of the source *)
Definition cont_copy (src : container) : M T container :=
  let* p := alloc (c_size src) in
  mfor 0 (c_size src) (fun i => let* x := load (c_data src) i in construct p i x) ;;;
  ret (mk_cont p (c_size src) (c_cap src)).
(** 69-77: (new object, source afterwards) *)
Definition cont_move (src : container) : container * container :=
  (mk_cont (c_data src) (c_size src) (c_cap src), mk_cont Null (c_size src) (c_cap src)).
(** 79-90; the initializer_list is an array outside the heap *)
Definition cont_of_list (l : list T) : M T container :=
  let n := Z.of_nat (length l) in
  let* p := alloc n in
  mfor 0 n (fun i => match znth l i with Some x => construct p i x | None => fail OutOfBounds end) ;;;
  ret (mk_cont p n n).
(** 92-108; [self] is [this == &container] *)
Definition cont_copy_assign (self : bool) (c src : container) : M T container :=
  if self then ret c else
  destroy (c_data c) 0 (c_size c) ;;;
  deallocate (c_data c) ;;;
  let* p := alloc (c_cap src) in
  mfor 0 (c_size src) (fun i => let* x := load (c_data src) i in construct p i x) ;;;
  ret (mk_cont p (c_size src) (c_cap src)).
(** 110-125: (target, source) afterwards *)
Definition cont_move_assign (self : bool) (c src : container) : M T (container * container) :=
  if self then ret (c, src) else
  destroy (c_data c) 0 (c_size c) ;;;
  deallocate (c_data c) ;;;
  ret (mk_cont (c_data src) (c_size src) (c_cap src), mk_cont Null (c_size src) (c_cap src)).

(** 159-175 *)
Definition cont_reserve (c : container) (n : Z) : M T container :=
  if c_cap c <? n then
    let* buff := alloc n in
    mfor 0 (c_size c) (fun i => let* x := move_from (c_data c) i in construct buff i x) ;;;
    destroy (c_data c) 0 (c_size c) ;;;
    deallocate (c_data c) ;;;
    ret (mk_cont buff (c_size c) n)
  else ret c.
(** 130-157; [arg k] is the value of the k-th object constructed from the forwarded arguments:
    constant for an lvalue or no argument, see [resize_rvalue] for an rvalue *)
Definition cont_resize (c : container) (n : Z) (arg : Z -> T) : M T container :=
  if c_cap c <? n then
    let* c' := cont_reserve c n in
    mfor (c_size c') n (fun i => construct (c_data c') i (arg (i - c_size c'))) ;;;
    ret (mk_cont (c_data c') n n)
  else if n <? c_size c then
    destroy (c_data c) n (c_size c) ;;; ret (mk_cont (c_data c) n (c_cap c))
  else
    mfor (c_size c) n (fun i => construct (c_data c) i (arg (i - c_size c))) ;;;
    ret (mk_cont (c_data c) n (c_cap c)).
(** an rvalue argument is moved from by the first element constructed from it *)
Definition resize_rvalue (x : T) (k : Z) : T := Nat.iter (Z.to_nat k) moved x.
(** 177-186; [arg] evaluates the forwarded argument when the element is constructed *)
Definition cont_emplace_back (c : container) (arg : M T T) : M T container :=
  let* c' := (if c_size c =? c_cap c then cont_reserve c (c_cap c * 2 + 1) else ret c) in
  let* x := arg in
  construct (c_data c') (c_size c') x ;;;
  ret (mk_cont (c_data c') (c_size c' + 1) (c_cap c')).
(** 188-193; [--size_] wraps for an empty container *)
Definition cont_pop_back (c : container) : M T container :=
  let n := u64 (c_size c - 1) in
  destruct_at (c_data c) n ;;; ret (mk_cont (c_data c) n (c_cap c)).
(** 195 *) Definition cont_empty (c : container) : bool := c_size c =? 0.
(** 215-216 [c[i]] read and assignment [c[i] = x] (of a constructed object) *)
Definition cont_get (c : container) (i : Z) : M T T := load (c_data c) i.
Definition cont_set (c : container) (i : Z) (x : T) : M T unit :=
  let* _ := load (c_data c) i in store (c_data c) i x.
(** 209-210 *) Definition cont_back (c : container) : M T T := load (c_data c) (u64 (c_size c - 1)).
(** 206-207 *) Definition cont_front (c : container) : M T T := load (c_data c) 0.

(** ** iterator, const_iterator (245-299): a pointer *)
Record iter := mk_iter { it_ptr : ptr }.
(** 197 *) Definition it_begin (c : container) : iter := mk_iter (c_data c).
(** 198 *) Definition it_end (c : container) : iter := mk_iter (padd (c_data c) (c_size c)).
(** 256, 284 *) Definition it_deref (it : iter) : M T T := load (it_ptr it) 0.
(** 262, 290 *) Definition it_incr (it : iter) : iter := mk_iter (padd (it_ptr it) 1).
(** 267, 295: [ptr_ + n; return *this;] the sum is discarded *)
Definition it_plus (it : iter) (n : Z) : iter := it.
(** 270, 298 *) Definition it_index (it : iter) (i : Z) : M T T := load (it_ptr it) i.
(** 260, 288 *) Definition it_eqb (a b : iter) : bool := ptr_eqb (it_ptr a) (it_ptr b).
End Container.
