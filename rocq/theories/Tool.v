(** * Model of /repo/include/Trixy/Lique/Tool.hpp

    Not modelled: [mean(matrix, axis)] and [std(matrix, axis)] (243-353), which cannot be
    instantiated ([vector.resize(n, value)] does not exist, line 257); [loop] (357-362, it is
    [for_each]). *)
From Verif Require Import Mem Scalar Lique.

Section Tool.
Context {T : Type} `{NT : Num T}.

(** 66-74 [accumulate(first, last, init)] over [n] elements at [p] *)
Definition tl_accumulate (p : ptr) (n : Z) (init : T) : M T T :=
  mfold 0 n (fun i acc => let* x := load p i in ret (add acc x)) init.

(** comp::is_bigger, comp::is_less: 30-40 *)
Definition is_bigger (previous current : T) : bool := ltb current previous.
Definition is_less (previous current : T) : bool := ltb previous current.

(** 76-92 [search(first, last, compare)]: offset of the iterator returned *)
Definition tl_search (p : ptr) (n : Z) (compare : T -> T -> bool) : M T Z :=
  if n =? 0 then ret 0 else
  mfold 1 n (fun i hold =>
    let* a := load p hold in
    let* b := load p i in
    ret (if compare a b then i else hold)) 0.

(** 139-149 *) Definition tl_argmin (p : ptr) (n : Z) : M T Z := tl_search p n is_bigger.
(** 151-161 *) Definition tl_argmax (p : ptr) (n : Z) : M T Z := tl_search p n is_less.
(** 175-186 *) Definition tl_min (p : ptr) (n : Z) : M T T := let* i := tl_search p n is_bigger in load p i.
(** 188-199 *) Definition tl_max (p : ptr) (n : Z) : M T T := let* i := tl_search p n is_less in load p i.

(** 101-137 [search(matrix, axis, compare)].  The returned Vector<size_t> has another element
    type than the heap of the model: it is a list of optional indices (None: not initialised). *)
Definition vget (v : list (option Z)) (n : Z) : M T Z :=
  match znth v n with Some (Some a) => ret a | Some None => fail UninitRead | None => fail OutOfBounds end.
Definition tl_search_x (matrix : tensor) (compare : T -> T -> bool) : M T (list (option Z)) :=
  let block_size := s_width (t_shape matrix) in
  let number_of_blocks := s_height (t_shape matrix) in
  let vector := repeat (Some 0) (Z.to_nat block_size) in
  mfold 1 number_of_blocks (fun i v =>
    mfold 0 block_size (fun n v =>
      let* a := vget v n in
      let* x := mat_get matrix a n in
      let* y := mat_get matrix i n in
      ret (if compare x y then set_nth (Z.to_nat n) (Some i) v else v)) v) vector.
(** the variable [arg] of line 110 is not initialised *)
Definition tl_search_y (matrix : tensor) (compare : T -> T -> bool) : M T (list (option Z)) :=
  let block_size := s_width (t_shape matrix) in
  let number_of_blocks := s_height (t_shape matrix) in
  let vector := repeat None (Z.to_nat number_of_blocks) in
  let* r := mfold 0 number_of_blocks (fun n st =>
    let* st' := mfold 1 block_size (fun i st =>
      match snd st with
      | None => fail UninitRead
      | Some arg =>
        let* x := mat_get matrix n arg in
        let* y := mat_get matrix n i in
        ret (fst st, if compare x y then Some i else Some arg)
      end) st in
    match snd st' with
    | None => fail UninitRead       (* vector(n) = arg *)
    | Some arg => ret (set_nth (Z.to_nat n) (Some arg) (fst st'), Some arg)
    end) (vector, None) in
  ret (fst r).

(** 201-213 [mean] *)
Definition tl_mean_init (p : ptr) (n : Z) (init : T) : M T T :=
  let* s := tl_accumulate p n init in ret (div s (ofZ n)).
Definition tl_mean (p : ptr) (n : Z) : M T T := tl_mean_init p n zero.
(** 215-241 [std] *)
Definition tl_std (p : ptr) (n : Z) (unbiased : bool) : M T T :=
  let* mean_value := tl_mean_init p n zero in
  let* s := mfold 0 n (fun i acc =>
    let* x := load p i in
    let init := sub x mean_value in
    ret (add acc (mul init init))) zero in
  ret (nsqrt (div s (ofZ (n - (if unbiased then 1 else 0))))).

(** Lique/Detail/FunctionDetail.hpp:35-53 [block_for_each] and Tool.hpp:366-375 [block_loop].
    [first], [last] are offsets of the two corners in one array; [func] gets the offset of the
    element it is applied to and threads a state.  The outer [while] gets fuel [last - first]
    (every round advances [first] by the non-zero external width). *)
Fixpoint block_rounds {A} (fuel : nat) (first last width W : Z) (func : Z -> A -> M T A) (a : A) : M T A :=
  if first <? last then
    match fuel with
    | O => fail BadCall
    | S fuel' =>
      let* a' := mfold first (first + width) func a in
      block_rounds fuel' (first + width + (W - width)) last width W func a'
    end
  else ret a.
Definition tl_block_loop {A} (first last W : Z) (func : Z -> A -> M T A) (a : A) : M T A :=
  if W =? 0 then fail BadCall (* remainder by zero *) else
  let size := last - first + 1 in
  block_rounds (Z.to_nat (last - first)) first last (size mod W) W func a.

(** 380-396 detail::concat, 421-434 [concat(it, it_n...)]; the parameter pack is a list *)
Fixpoint concat_into (out : tensor) (at_ : Z) (l : list tensor) : M T unit :=
  match l with
  | [] => ret tt
  | it :: rest =>
    detail_copy (padd (t_data out) at_) (t_size it) (t_data it) ;;;
    concat_into out (at_ + t_size it) rest
  end.
Definition total_size (l : list tensor) : Z := fold_right (fun t s => u64 (t_size t + s)) 0 l.
Definition tl_concat (l : list tensor) : M T tensor :=
  let* out := vec_new (total_size l) in
  concat_into out 0 l ;;; ret out.
(** 399-419 [concat(list)]: the loop variable [it] hides the result [it] *)
Fixpoint concat_shadowed (at_ : Z) (l : list tensor) : M T unit :=
  match l with
  | [] => ret tt
  | it :: rest =>
    detail_copy (padd (t_data it) at_) (t_size it) (t_data it) ;;;
    concat_shadowed (at_ + t_size it) rest
  end.
Definition tl_concat_list (l : list tensor) : M T tensor :=
  let* out := vec_new (total_size l) in
  concat_shadowed 0 l ;;; ret out.

(** 436-460 [multinomial(first, last, generator, rand_max)]; [g] is the value [generator()]
    returns *)
Definition tl_multinomial (p : ptr) (n : Z) (g rand_max : Z) : M T Z :=
  let random_value := div (ofZ g) (ofZ rand_max) in
  let* st := mfold 0 n (fun i st =>
    match snd st with
    | Some r => ret st
    | None =>
      let* x := load p i in
      let acc := add (fst st) x in
      ret (acc, if ltb random_value acc then Some i else None)
    end) (zero, None) in
  match snd st with
  | Some r => ret r
  | None => tl_search p n is_less
  end.
End Tool.
