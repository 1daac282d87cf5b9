(** * Models: random numbers, work splitting, MNIST files

    /repo/include/Trixy/Random/Core.hpp, /repo/include/Trixy/Detail/FunctionDetail.hpp (18-36),
    /repo/test/src/mnist_test/mnist_reader.hpp *)
From Coq Require Import ZArith List Lia Bool.
From Verif Require Import Mem Scalar.
Open Scope Z_scope.

(** ** Integer types *)
(** An integral template argument [T]: signedness and width (two's complement). *)
Record ity := { i_signed : bool; i_bits : Z }.
Definition i_min (t : ity) : Z := if i_signed t then - 2 ^ (i_bits t - 1) else 0.
Definition i_max (t : ity) : Z := if i_signed t then 2 ^ (i_bits t - 1) - 1 else 2 ^ i_bits t - 1.
Definition c_int : ity := {| i_signed := true; i_bits := 32 |}.
Definition c_long_long : ity := {| i_signed := true; i_bits := 64 |}.
(** [static_cast<t>(z)]: modulo 2^bits (implementation defined before C++20, like this everywhere) *)
Definition i_cast (t : ity) (z : Z) : Z :=
  let r := z mod 2 ^ i_bits t in if i_signed t && (2 ^ (i_bits t - 1) <=? r) then r - 2 ^ i_bits t else r.
(** the integral promotions *)
Definition promoted (t : ity) : ity := if i_bits t <? 32 then c_int else t.
(** the result of an arithmetic operation of type [t]: unsigned wraps, signed overflow is undefined *)
Definition arith (t : ity) (z : Z) : res Z :=
  if i_signed t then if (i_min t <=? z) && (z <=? i_max t) then Ok z else UB BadCall else Ok (z mod 2 ^ i_bits t).
Definition rbind {A B} (c : res A) (f : A -> res B) : res B := match c with Ok a => f a | UB k => UB k end.
Notation "'let?' x := c 'in' f" := (rbind c (fun x => f)) (at level 61, c at next level, f at level 200, right associativity).

(** Random/Core.hpp:96-99: [static_cast<integral_type>(gen())], [g] the value returned by the generator *)
Definition random_integral (t : ity) (g : Z) : Z := i_cast t g.
(** Random/Core.hpp:101-104: [this->operator()() % (max - min + 1) + min].  C++ [%] truncates (Z.rem); a zero
    right operand is undefined. *)
Definition random_integral_range (t : ity) (g lo hi : Z) : res Z :=
  let p := promoted t in
  let? d := arith p (hi - lo) in
  let? w := arith p (d + 1) in
  if w =? 0 then UB BadCall else
  let? r := arith p (Z.rem (random_integral t g) w) in
  let? s := arith p (r + lo) in
  Ok (i_cast t s).

Section Floating.
Context {T : Type} `{NT : Num T}.
(** Random/Core.hpp:125-128: [floating_type(gen()) / floating_type(gen.max())] *)
Definition random_floating (g gmax : Z) : T := div (ofZ g) (ofZ gmax).
(** Random/Core.hpp:130-133: [(max - min) * this->operator()() + min] *)
Definition random_floating_range (g gmax : Z) (lo hi : T) : T := add (mul (sub hi lo) (random_floating g gmax)) lo.
End Floating.
(** Random/Core.hpp:69-70: DefaultGenerator::min() = 0, max() = RAND_MAX (glibc: 2^31-1) *)
Definition rand_max : Z := 2 ^ 31 - 1.

(** Detail/FunctionDetail.hpp:17-36.  [hw]: std::thread::hardware_concurrency(). *)
Definition parallel_info (min_per_thread hw size : Z) : Z * Z :=
  if size =? 0 then (1, 0) else
  let max_threads := u64 ((size - 1) / min_per_thread + 1) in
  let threads := Z.min (if hw =? 0 then 2 else hw) max_threads in
  (threads, size / threads).

(** ** MNIST files.  A file is its list of bytes. *)
Definition u32 (z : Z) : Z := z mod 2 ^ 32.
Definition byte_at (buf : list Z) (i : Z) : res Z := match znth buf i with Some b => Ok b | None => UB OutOfBounds end.
(** [*(header + position)], header a uint32_t* to the buffer: little-endian machine *)
Definition load32 (buf : list Z) (position : Z) : res Z :=
  let? b0 := byte_at buf (4 * position) in
  let? b1 := byte_at buf (4 * position + 1) in
  let? b2 := byte_at buf (4 * position + 2) in
  let? b3 := byte_at buf (4 * position + 3) in
  Ok (b0 + 256 * b1 + 256 ^ 2 * b2 + 256 ^ 3 * b3).
(** mnist_reader.hpp:31-36 *)
Definition read_header (buf : list Z) (position : Z) : res Z :=
  let? value := load32 buf position in
  Ok (Z.lor (Z.lor (Z.lor (u32 (Z.shiftl value 24)) (Z.land (u32 (Z.shiftl value 8)) 16711680))
     (Z.land (Z.shiftr value 8) 65280)) (Z.shiftr value 24)).
(** mnist_reader.hpp:43-83, for a file that can be opened: [Some buffer] or [None] (rejected).
    All products and sums in uint32_t; [size] is compared as a 64-bit integer. *)
Definition read_mnist_file (file : list Z) (key : Z) : res (option (list Z)) :=
  let size := Z.of_nat (length file) in
  let? magic := read_header file 0 in
  if negb (magic =? key) then Ok None else
  let? count := read_header file 1 in
  if magic =? 2051 then
    let? rows := read_header file 2 in
    let? columns := read_header file 3 in
    if size <? u32 (u32 (u32 (count * rows) * columns) + 16) then Ok None else Ok (Some file)
  else if magic =? 2049 then
    if size <? u32 (count + 8) then Ok None else Ok (Some file)
  else Ok (Some file).
(** reading [n] consecutive bytes starting at [from] *)
Fixpoint read_bytes (buf : list Z) (from : Z) (n : nat) : res (list Z) :=
  match n with
  | O => Ok []
  | S n => let? b := byte_at buf from in let? bs := read_bytes buf (from + 1) n in Ok (b :: bs)
  end.
Fixpoint read_rows (buf : list Z) (from len : Z) (n : nat) : res (list (list Z)) :=
  match n with
  | O => Ok []
  | S n => let? r := read_bytes buf from (Z.to_nat len) in let? rs := read_rows buf (from + len) len n in Ok (r :: rs)
  end.
(** mnist_reader.hpp:183-212: the images appended, each as the list of its pixels (the functor is
    taken to give images with room for rows * columns pixels; pixel conversion not modelled) *)
Definition read_mnist_image_file (file : list Z) (limit : Z) : res (list (list Z)) :=
  let? buffer := read_mnist_file file 2051 in
  match buffer with
  | None => Ok []
  | Some buffer =>
    let? count := read_header buffer 1 in
    let? rows := read_header buffer 2 in
    let? columns := read_header buffer 3 in
    let count := if (0 <? limit) && (limit <? count) then u32 limit else count in
    read_rows buffer 16 (u32 (rows * columns)) (Z.to_nat count)
  end.
(** mnist_reader.hpp:220-243: the labels *)
Definition read_mnist_label_file (file : list Z) (limit : Z) : res (list Z) :=
  let? buffer := read_mnist_file file 2049 in
  match buffer with
  | None => Ok []
  | Some buffer =>
    let? count := read_header buffer 1 in
    let count := if (0 <? limit) && (limit <? count) then u32 limit else count in
    read_bytes buffer 8 (Z.to_nat count)
  end.
