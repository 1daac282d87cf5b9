(** * Locked tensors (Locker/Tensor.hpp, Locker/Matrix.hpp, Locker/Vector.hpp)

    A [Locker<X>] inherits (protected) from the owning class [X] and re-exports part of its
    interface: element access, [copy], [fill], [apply], [add], [sub], [mul], [join], [data],
    [size], [shape].  [resize], [reshape], [swap] and both assignments are not re-exported
    (Locker/Tensor.hpp:51-52 and 64-84; Matrix.hpp, Vector.hpp: the same lines up to the
    class name), so a program that names them on a locked object does not compile.

    The machine below runs programs on plain and locked objects.  A state is the list of all
    objects ever created ([None] once destroyed), which of them are locked, and the memory.
    Steps that are not C++ programs (because the member is not accessible, or the object does
    not exist) are skipped, as in Lifecycle.v.

    [ContainerLocker] (Locker/Container.hpp) is in ContProgram.v. *)
From Verif Require Import Mem Scalar Lique Lifecycle.

Section Locker.
Context {T : Type} `{NT : Num T}.

(** the re-exported members that write elements (TensorBase.hpp:128-264, 283-301), applied to
    one object with other objects (plain, or locked through [base()]) as arguments *)
Inductive wop :=
| WCopyPtr (b : nat)                       (* a.copy(b.data())     *)
| WCopy (b : nat)                          (* a.copy(b)            *)
| WCopyList (l : list T)                   (* a.copy({...})        *)
| WFillGen (g : Z -> T)                    (* a.fill(generator)    *)
| WFill (x : T)                            (* a.fill(value)        *)
| WApply (f : T -> T)                      (* a.apply(f)           *)
| WApplySrc (f : T -> T) (b : nat)         (* a.apply(f, b)        *)
| WAssign (op : binop) (b : nat)           (* a.add(b), sub, mul   *)
| WAssign2 (op : binop) (b c : nat)        (* a.add(b, c), ...     *)
| WJoin (x : T)                            (* a.join(value)        *)
| WJoinSrc (x : T) (b : nat)               (* a.join(value, b)     *)
| WSet (i : Z) (x : T).                    (* a(i) = x             *)

Inductive kop :=
| KCtor (locked : bool) (o : lop T)        (* X a(...);  /  Locker<X> a(...);   *)
| KOp (o : lop T)                          (* assignment, resize, swap, ... , destruction *)
| KWrite (a : nat) (w : wop)               (* a member that writes elements     *)
| KRefSwap (a b : nat)                     (* a.copy(a.base()).swap(b);         *)
| KRefAssign (a b : nat).                  (* a.copy(a.base()) = b;             *)

Definition kstate := (list obj * list bool * mem T)%type.

Definition is_locked (lk : list bool) (a : nat) : bool := nth a lk false.

(** Which of the member functions compile.
    Constructors: Locker/Tensor.hpp:41-58.  A locked object can be built from anything its
    base can, in particular copied or moved from a plain or a locked object; a plain object
    can be copied from a locked one ([X b(a.base())], line 62) but not moved from it
    (the conversion to [X&&] is inaccessible).
    Others: 51-52 (no assignments), 64-84 (no [resize], [reshape], [swap]). *)
Definition is_ctor (o : lop T) : bool :=
  match o with
  | LDefault _ | LNew _ _ _ _ | LNewFill _ _ _ _ _ | LNewList _ _ | LCopyCtor _ | LMoveCtor _ => true
  | _ => false
  end.
Definition ctor_compiles (lk : list bool) (locked : bool) (o : lop T) : bool :=
  match o with
  | LMoveCtor a => locked || negb (is_locked lk a)
  | o => is_ctor o
  end.
Definition op_compiles (lk : list bool) (o : lop T) : bool :=
  match o with
  | LCopyAssign a _ => negb (is_locked lk a)
  | LMoveAssign a b => negb (is_locked lk a) && negb (is_locked lk b)
  | LResize a _ _ _ | LReshape a _ _ _ => negb (is_locked lk a)
  | LSwap a b => negb (is_locked lk a) && negb (is_locked lk b)
  | LFill _ _ | LDestroy _ => true
  | _ => false
  end.

(** the members of TensorBase.hpp, see Lique.v; an argument that does not exist: no program *)
Definition do_write (e : list obj) (a : nat) (t : tensor) (w : wop) : option (M T unit) :=
  let arg b (k : tensor -> M T unit) :=
    match live_obj e b with Some (_, t') => Some (k t') | None => None end in
  match w with
  | WCopyPtr b => arg b (fun t' => tb_copy_ptr t (t_data t'))
  | WCopy b => arg b (fun t' => tb_copy (Nat.eqb a b) t t')
  | WCopyList l => Some (tb_copy_list t l)
  | WFillGen g => Some (tb_fill_gen t g)
  | WFill x => Some (tb_fill t x)
  | WApply f => Some (tb_apply t f)
  | WApplySrc f b => arg b (fun t' => tb_apply_src t f (t_data t'))
  | WAssign op b => arg b (fun t' => tb_assign op t t')
  | WAssign2 op b c =>
    match live_obj e b, live_obj e c with
    | Some (_, t1), Some (_, t2) => Some (tb_assign2 op t t1 t2)
    | _, _ => None end
  | WJoin x => Some (tb_join t x)
  | WJoinSrc x b => arg b (fun t' => tb_join_src t x t')
  | WSet i x => Some (tb_set t i x)
  end.

Definition kstep (s : kstate) (o : kop) : res kstate :=
  let '(e, lk, m) := s in
  match o with
  | KCtor locked c =>
    if ctor_compiles lk locked c then
      match lstep (e, m) c with
      | Ok (e', m') => Ok (e', (if Nat.eqb (length e') (length e) then lk else lk ++ [locked]), m')
      | UB k => UB k end
    else Ok s
  | KOp c =>
    if op_compiles lk c then
      match lstep (e, m) c with Ok (e', m') => Ok (e', lk, m') | UB k => UB k end
    else Ok s
  | KWrite a w =>
    match live_obj e a with
    | Some (c, t) =>
      match do_write e a t w with
      | Some r => match r m with Ok (_, m') => Ok (e, lk, m') | UB k => UB k end
      | None => Ok s end
    | None => Ok s end
  (** TensorBase.hpp:134-140: [copy(x)] with [x] the object itself returns [*this] as a plain
      base reference without touching anything; 272-276: [swap] of the base.  [b] is plain. *)
  | KRefSwap a b =>
    if is_locked lk b then Ok s else
    match live_obj e a, live_obj e b with
    | Some (c, t), Some (c', t') =>
      let (n, n') := tb_swap t t' in
      Ok (set_nth a (Some (c, n)) (set_nth b (Some (c', n')) e), lk, m)
    | _, _ => Ok s end
  (** TensorBase.hpp:105-114: the copy assignment of the base copies pointer and shape *)
  | KRefAssign a b =>
    match live_obj e a, live_obj e b with
    | Some (c, t), Some (_, t') =>
      Ok (set_nth a (Some (c, if Nat.eqb a b then t else t')) e, lk, m)
    | _, _ => Ok s end
  end.

Fixpoint krun (ops : list kop) (s : kstate) : res kstate :=
  match ops with
  | [] => Ok s
  | o :: t => match kstep s o with Ok s' => krun t s' | UB k => UB k end
  end.
End Locker.
Arguments kop : clear implicits.
Arguments wop : clear implicits.
Arguments kstate : clear implicits.
