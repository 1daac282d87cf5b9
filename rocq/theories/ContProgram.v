(** * Programs with many containers, plain and locked

    Model of what a program can do with any number of [Container] objects (Container.hpp) and
    [ContainerLocker] objects (Locker/Container.hpp 22-81).  A [ContainerLocker] is a Container
    behind protected inheritance: of the member functions only the observers and the element
    accesses are re-exported (65-80), [base()] gives a [const Container&] (61-62), the
    constructors forward to those of Container (39-57), and no assignment exists (52: the user
    declared move constructor deletes it).  The state is the list of all objects ever created
    ([None] once destroyed) and the memory; every step calls the member functions modelled in
    Container.v.  A step on an object that does not exist, or that a type does not offer, is
    not a C++ program: it fails with [BadCall]. *)
From Verif Require Import Mem Container.

(** the constructors: default (43), sized (51-58), initializer_list (79-90) *)
Inductive kctor (T : Type) := KDefault | KSized (n : Z) | KList (l : list T).
Arguments KDefault {T}. Arguments KSized {T}. Arguments KList {T}.
(** member functions that change a container or its elements: emplace_back (177-186), pop_back
    (188-193), resize with an lvalue (130-157), reserve (159-175), [c[i] = x] (215) *)
Inductive kop (T : Type) :=
| KAppend (x : T) | KPop | KResize (n : Z) (x : T) | KReserve (n : Z) | KWrite (i : Z) (x : T).
Arguments KAppend {T}. Arguments KPop {T}. Arguments KResize {T}. Arguments KReserve {T}. Arguments KWrite {T}.

(** one statement of the program; [lk] says whether the new object is a ContainerLocker *)
Inductive kstmt (T : Type) :=
| SNew (lk : bool) (k : kctor T)
| SCopy (lk : bool) (src : nat)
| SMove (lk : bool) (src : nat)
| SOp (a : nat) (o : kop T)
| SCopyAssign (a src : nat)
| SMoveAssign (a src : nat)
| SDestroy (a : nat).
Arguments SNew {T}. Arguments SCopy {T}. Arguments SMove {T}. Arguments SOp {T}.
Arguments SCopyAssign {T}. Arguments SMoveAssign {T}. Arguments SDestroy {T}.

(** an object: locked or plain, and its data members *)
Definition kobj := (bool * container)%type.

Section ContProgram.
Context {T : Type}.
Variables (moved : T -> T) (dflt : T).

(** Container.hpp 43, 51-58, 79-90; Locker/Container.hpp 40, 44-48, 57 forward to them.  A
    negative count is not a value of [size_type]. *)
Definition k_new (k : kctor T) : M T container :=
  match k with
  | KDefault => ret cont_default
  | KSized n => if n <? 0 then fail BadCall else cont_sized dflt n
  | KList l => cont_of_list l
  end.
(** Container.hpp 130-193, 215 *)
Definition k_op (o : kop T) (c : container) : M T container :=
  match o with
  | KAppend x => cont_emplace_back moved c (ret x)
  | KPop => cont_pop_back c
  | KResize n x => cont_resize moved c n (fun _ => x)
  | KReserve n => cont_reserve moved c n
  | KWrite i x => cont_set c i x ;;; ret c
  end.
(** Locker/Container.hpp 65-80: of the above only [operator[]] *)
Definition k_offered (lk : bool) (o : kop T) : bool :=
  match lk, o with true, KWrite _ _ => true | true, _ => false | false, _ => true end.

(** the object with number [a] *)
Definition k_get (s : list (option kobj)) (a : nat) : M T kobj :=
  match nth_error s a with Some (Some ob) => ret ob | _ => fail BadCall end.

Definition k_step (q : kstmt T) (s : list (option kobj)) : M T (list (option kobj)) :=
  match q with
  | SNew lk k => let* c := k_new k in ret (s ++ [Some (lk, c)])
  (* Container.hpp 60-67; Locker/Container.hpp 51, 54; a plain copy of a locker copies [base()] *)
  | SCopy lk src =>
      let* ob := k_get s src in
      let* c := cont_copy (snd ob) in
      ret (s ++ [Some (lk, c)])
  (* Container.hpp 69-77; Locker/Container.hpp 52, 55; [base()] is const, so the contents of a
     locker can only be moved into another locker *)
  | SMove lk src =>
      let* ob := k_get s src in
      if fst ob && negb lk then fail BadCall else
      let (c, c') := cont_move (snd ob) in
      ret (set_nth src (Some (fst ob, c')) s ++ [Some (lk, c)])
  | SOp a o =>
      let* ob := k_get s a in
      if k_offered (fst ob) o then
        let* c := k_op o (snd ob) in ret (set_nth a (Some (fst ob, c)) s)
      else fail BadCall
  (* Container.hpp 92-108; the source may be the [base()] of a locker *)
  | SCopyAssign a src =>
      let* ob := k_get s a in
      let* ob' := k_get s src in
      if fst ob then fail BadCall else
      let* c := cont_copy_assign (Nat.eqb a src) (snd ob) (snd ob') in
      ret (set_nth a (Some (false, c)) s)
  (* Container.hpp 110-125 *)
  | SMoveAssign a src =>
      let* ob := k_get s a in
      let* ob' := k_get s src in
      if fst ob || fst ob' then fail BadCall else
      let* cc := cont_move_assign (Nat.eqb a src) (snd ob) (snd ob') in
      ret (set_nth src (Some (false, snd cc)) (set_nth a (Some (false, fst cc)) s))
  (* Container.hpp 45-49; Locker/Container.hpp 59 *)
  | SDestroy a =>
      let* ob := k_get s a in
      cont_destroy (snd ob) ;;; ret (set_nth a None s)
  end.
Fixpoint k_run (p : list (kstmt T)) (s : list (option kobj)) : M T (list (option kobj)) :=
  match p with [] => ret s | q :: p' => let* s' := k_step q s in k_run p' s' end.
End ContProgram.
