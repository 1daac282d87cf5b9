(** * Specification vocabulary for memory (used in the statements of the properties) *)
From Verif Require Import Mem.

Section MemSpec.
Context {T : Type}.
Implicit Types (m : mem T) (p q : ptr) (n i : Z).

(** Content of offset [i] of block [b]: [None] - not a live location; [Some None] - live,
    uninitialised; [Some (Some x)] - live, holds [x]. *)
Definition cell m (b : nat) (i : Z) : option (option T) :=
  match nth_error m b with Some (Some l) => znth l i | _ => None end.

(** Content of [*(p+i)]. *)
Definition elem m p i : option (option T) :=
  match p with Null => None | Ptr b o => cell m b (o + i) end.

(** The [n] elements at [p] exist and have the values [v 0 .. v (n-1)]. *)
Definition holds m p n (v : Z -> T) : Prop :=
  forall i, 0 <= i < n -> elem m p i = Some (Some (v i)).

(** The [n] elements at [p] exist (initialised or not). *)
Definition room m p n : Prop := forall i, 0 <= i < n -> elem m p i <> None.

(** Locations of the [n] elements at [p]. *)
Definition inside p n (b : nat) (i : Z) : Prop :=
  match p with Null => False | Ptr b' o => b = b' /\ o <= i < o + n end.

(** Which blocks exist, which are live, and their lengths. *)
Definition skel m : list (option nat) := map (option_map (@length _)) m.

(** [m'] differs from [m] at most in the contents of locations in [W]: nothing was allocated
    or released, and every other location (of every block) holds what it held. *)
Definition only (W : nat -> Z -> Prop) m m' : Prop :=
  skel m' = skel m /\ forall b i, ~ W b i -> cell m' b i = cell m b i.

(** The two ranges share no location. *)
Definition disjoint p n q k : Prop := forall b i, inside p n b i -> inside q k b i -> False.

(** An operand range of [n] elements that may be combined with the result range: the result
    itself, or entirely separate from it. *)
Definition operand_ok (dst : ptr) n (src : ptr) : Prop := src = dst \/ disjoint dst n src n.

(** Block [b] of [m] is a live allocation of exactly [n] elements. *)
Definition live m (b : nat) n : Prop :=
  exists l, nth_error m b = Some (Some l) /\ Z.of_nat (length l) = n.
Definition freed m (b : nat) : Prop := nth_error m b = Some None.

(** Every block of [m] (except those in [X]) is untouched in [m']. *)
Definition keeps (X : nat -> Prop) m m' : Prop :=
  (length m <= length m')%nat /\
  forall b, (b < length m)%nat -> ~ X b -> nth_error m' b = nth_error m b.

(** An element-wise operation: exactly the [n] elements at [dst] are set, to [f 0 .. f (n-1)]. *)
Definition sets (dst : ptr) n (f : Z -> T) m m' : Prop :=
  holds m' dst n f /\ only (inside dst n) m m'.

(** [p] is a new allocation of exactly [n] elements (numbered after all blocks of [m]) with
    values [v], and nothing else happened. *)
Definition made m n (v : Z -> T) (p : ptr) m' : Prop :=
  p = Ptr (length m) 0 /\ live m' (length m) n /\ holds m' p n v /\
  keeps (fun _ => False) m m' /\ length m' = S (length m).

(** [p] is null or the start of a live allocation: what an owning object may hold. *)
Definition owned m (p : ptr) : Prop :=
  match p with Null => True | Ptr b o => o = 0 /\ exists l, nth_error m b = Some (Some l) end.
(** [p] points into block [b]. *)
Definition owns_block (p : ptr) (b : nat) : Prop :=
  match p with Null => False | Ptr b' _ => b = b' end.
End MemSpec.
