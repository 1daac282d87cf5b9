(** * What a program with many containers means

    An object is described by the list it holds, its reported capacity and the number of
    objects its storage really has room for (smaller than the capacity after copy
    construction); or it has been moved from while it held something, and then only reports a
    size and a capacity.  The rules below say when a statement is allowed and what it does to
    the descriptions.  Nothing here mentions memory. *)
From Verif Require Import Mem ContProgram.

Section Spec.
Context {T : Type}.
Implicit Types (l : list T).

Inductive aval :=
| Holds (l : list T) (cap room : Z)
| Gone (size cap : Z).
Definition aobj := (bool * aval)%type.
Definition alen l : Z := Z.of_nat (length l).

(** what is left in a container after its contents were moved out *)
Definition a_moved (v : aval) : aval :=
  match v with
  | Holds [] cap _ => Holds [] cap 0
  | Holds l cap _ => Gone (alen l) cap
  | Gone n cap => Gone n cap
  end.
Definition a_new (dflt : T) (k : kctor T) : option (list T) :=
  match k with
  | KDefault => Some []
  | KSized n => if n <? 0 then None else Some (repeat dflt (Z.to_nat n))
  | KList l => Some l
  end.
Definition a_op (o : kop T) (v : aval) : option aval :=
  match v with
  | Holds l cap room =>
    match o with
    | KAppend x =>
        if alen l =? cap then Some (Holds (l ++ [x]) (2 * cap + 1) (2 * cap + 1))
        else if alen l <? room then Some (Holds (l ++ [x]) cap room) else None
    | KPop => match l with [] => None | _ => Some (Holds (removelast l) cap room) end
    | KResize n x =>
        if n <? 0 then None
        else if cap <? n then Some (Holds (l ++ repeat x (Z.to_nat n - length l)) n n)
        else if n <=? room then Some (Holds (firstn (Z.to_nat n) l ++ repeat x (Z.to_nat n - length l)) cap room)
        else None
    | KReserve n => Some (if cap <? n then Holds l n n else Holds l cap room)
    | KWrite i x =>
        if (0 <=? i) && (i <? alen l)
        then Some (Holds (firstn (Z.to_nat i) l ++ x :: skipn (S (Z.to_nat i)) l) cap room) else None
    end
  | Gone n0 cap =>
    match o with
    | KReserve n => if cap <? n then None else Some v
    | KResize n _ => if n =? 0 then Some (Holds [] cap 0) else if n =? n0 then Some v else None
    | _ => None
    end
  end.
(** a locker offers element access only *)
Definition a_offered (lk : bool) (o : kop T) : bool :=
  if lk then match o with KWrite _ _ => true | _ => false end else true.

Definition a_get (S : list (option aobj)) (a : nat) : option aobj :=
  match nth_error S a with Some (Some v) => Some v | _ => None end.
Definition a_step (dflt : T) (q : kstmt T) (S : list (option aobj)) : option (list (option aobj)) :=
  match q with
  | SNew lk k =>
      match a_new dflt k with Some l => Some (S ++ [Some (lk, Holds l (alen l) (alen l))]) | None => None end
  | SCopy lk src =>
      match a_get S src with
      | Some (_, Holds l cap room) => Some (S ++ [Some (lk, Holds l cap (alen l))])
      | _ => None
      end
  | SMove lk src =>
      match a_get S src with
      | Some (lk', v) => if lk' && negb lk then None
                         else Some (set_nth src (Some (lk', a_moved v)) S ++ [Some (lk, v)])
      | None => None
      end
  | SOp a o =>
      match a_get S a with
      | Some (lk, v) =>
          if a_offered lk o then
            match a_op o v with Some v' => Some (set_nth a (Some (lk, v')) S) | None => None end
          else None
      | None => None
      end
  | SCopyAssign a src =>
      match a_get S a, a_get S src with
      | Some (false, _), Some (_, v) =>
          if Nat.eqb a src then Some S
          else match v with Holds l cap room => Some (set_nth a (Some (false, Holds l cap cap)) S) | Gone _ _ => None end
      | _, _ => None
      end
  | SMoveAssign a src =>
      match a_get S a, a_get S src with
      | Some (false, _), Some (false, v) =>
          if Nat.eqb a src then Some S
          else Some (set_nth src (Some (false, a_moved v)) (set_nth a (Some (false, v)) S))
      | _, _ => None
      end
  | SDestroy a => match a_get S a with Some _ => Some (set_nth a None S) | None => None end
  end.

(** no list has reached 2^64 elements (the model's counters do not wrap, see Container.v) *)
Definition fits (S : list (option aobj)) : bool :=
  forallb (fun v => match v with Some (_, Holds l _ _) => alen l <? 2 ^ 64 | _ => true end) S.
(** [Runs S]: allowed, ending in the descriptions [S]; [Breaks]: some statement is not allowed;
    [TooBig]: a list reached 2^64 elements *)
Inductive verdict := Runs (S : list (option aobj)) | Breaks | TooBig.
Fixpoint a_run (dflt : T) (p : list (kstmt T)) (S : list (option aobj)) : verdict :=
  if fits S then
    match p with
    | [] => Runs S
    | q :: p' => match a_step dflt q S with Some S' => a_run dflt p' S' | None => Breaks end
    end
  else TooBig.

(** the statement ends the life of object [a] or empties it *)
Definition ends (a : nat) (q : kstmt T) : bool :=
  match q with
  | SDestroy b | SMove _ b => Nat.eqb a b
  | _ => false
  end.
(** the elements of [a] after the writes the program makes through [a], from the list [l] *)
Fixpoint own_writes (a : nat) (p : list (kstmt T)) l : list T :=
  match p with
  | [] => l
  | SOp b (KWrite i x) :: p' =>
      own_writes a p' (if Nat.eqb a b then firstn (Z.to_nat i) l ++ x :: skipn (S (Z.to_nat i)) l else l)
  | _ :: p' => own_writes a p' l
  end.
End Spec.
Arguments aval T : clear implicits.
Arguments aobj T : clear implicits.
Arguments verdict T : clear implicits.
