(** * Property C122: what the constructors build, resize and reshape by shape, views *)
From Verif Require Import Mem Scalar MemSpec MemLemmas Lique LiqueProofs LiqueProofs2.

Section Props.
Context {T : Type} `{NT : Num T}.
Implicit Types (m : mem T) (t : tensor).

(** The object reports depth, height and width as given, and their product as its size. *)
Definition dims t (d h w : Z) : Prop :=
  s_depth (t_shape t) = d /\ s_height (t_shape t) = h /\ s_width (t_shape t) = w /\ t_size t = d * h * w.
(** [p] is a new allocation of exactly [n] uninitialised elements, and nothing else happened. *)
Definition blank m (n : Z) (p : ptr) m' : Prop :=
  p = Ptr (length m) 0 /\ live m' (length m) n /\ (forall i, 0 <= i < n -> elem m' p i = Some None) /\
  keeps (fun _ => False) m m' /\ length m' = S (length m).
(** The call [c] in memory [m] succeeds with an object of the given dimensions ... *)
(** ... with uninitialised elements, *)
Definition builds_blank (c : M T tensor) m (d h w : Z) : Prop :=
  exists t m', c m = Ok (t, m') /\ dims t d h w /\ blank m (d * h * w) (t_data t) m'.
(** ... with elements [v], in storage of its own. *)
Definition builds (c : M T tensor) m (d h w : Z) (v : Z -> T) : Prop :=
  exists t m', c m = Ok (t, m') /\ dims t d h w /\ made m (d * h * w) v (t_data t) m'.
(** The call replaces the object's storage by uninitialised storage for the given dimensions. *)
Definition rebuilds (c : M T tensor) t m (d h w n : Z) : Prop :=
  exists t' m', c m = Ok (t', m') /\
    s_depth (t_shape t') = d /\ s_height (t_shape t') = h /\ s_width (t_shape t') = w /\ t_size t' = n /\
    t_data t' = Ptr (length m) 0 /\ live m' (length m) n /\
    (forall b o, t_data t = Ptr b o -> freed m' b) /\ keeps (owns_block (t_data t)) m m'.

(** ** proofs *)
Lemma blank_alloc m n : 0 <= n -> blank m n (Ptr (length m) 0) (m ++ [Some (repeat None (Z.to_nat n))]).
Proof.
  intros Hn. split; [reflexivity|]. split; [now apply live_alloc|]. split.
  { intros i Hi. cbn [elem]. rewrite Z.add_0_l. now apply cell_alloc. }
  split; [split; [rewrite app_length; lia|]|rewrite app_length; cbn; lia].
  intros b Hb _. now rewrite nth_error_app1.
Qed.
Lemma build_blank m s d h w : s_depth s = d -> s_height s = h -> s_width s = w -> s_size s = d * h * w -> 0 <= d * h * w ->
  builds_blank (let* p := alloc (s_size s) in ret (mk_tensor p s)) m d h w.
Proof.
  intros A B C D E. exists (mk_tensor (Ptr (length m) 0) s). eexists. split; [reflexivity|].
  split; [now repeat split|]. rewrite D. now apply blank_alloc.
Qed.
Lemma build_fill m s d h w x : s_depth s = d -> s_height s = h -> s_width s = w -> s_size s = d * h * w -> 0 <= d * h * w ->
  builds (let* p := alloc (s_size s) in let t := mk_tensor p s in tb_fill t x ;;; ret t) m d h w (fun _ => x).
Proof.
  intros A B C D E. destruct (wp_elim _ _ _ _ (wp_alloc_fill (d * h * w) x m E)) as ([] & m' & R & Q).
  exists (mk_tensor (Ptr (length m) 0) s), m'. split.
  { unfold bind at 1. unfold alloc. cbv zeta. unfold bind, tb_fill, t_size. cbn [t_data t_shape]. rewrite D, R. reflexivity. }
  split; [now repeat split|exact Q].
Qed.
Lemma build_copy m s src v d h w : s_depth s = d -> s_height s = h -> s_width s = w -> s_size s = d * h * w -> 0 <= d * h * w ->
  holds m src (d * h * w) v ->
  builds (let* p := alloc (s_size s) in let t := mk_tensor p s in tb_copy_ptr t src ;;; ret t) m d h w v.
Proof.
  intros A B C D E Hv. destruct (wp_elim _ _ _ _ (wp_alloc_copy (d * h * w) src m v E Hv)) as ([] & m' & R & Q).
  exists (mk_tensor (Ptr (length m) 0) s), m'. split.
  { unfold bind at 1. unfold alloc. cbv zeta. unfold bind, tb_copy_ptr, t_size. cbn [t_data t_shape]. rewrite D, R. reflexivity. }
  split; [now repeat split|exact Q].
Qed.
Lemma build_list m s (l : list T) x0 d h w : s_depth s = d -> s_height s = h -> s_width s = w -> s_size s = d * h * w ->
  d * h * w = Z.of_nat (length l) ->
  builds (let* p := alloc (s_size s) in let t := mk_tensor p s in tb_copy_list t l ;;; ret t) m d h w (fun i => nth (Z.to_nat i) l x0).
Proof.
  intros A B C D E.
  destruct (wp_elim _ _ _ _ (wp_detail_copy_list (Ptr (length m) 0) (d * h * w) l _ x0 (room_alloc m (d * h * w)) ltac:(lia))) as ([] & m' & R & Q).
  exists (mk_tensor (Ptr (length m) 0) s), m'. split.
  { unfold bind at 1. unfold alloc. cbv zeta. unfold bind, tb_copy_list, t_size. cbn [t_data t_shape]. rewrite D, R. reflexivity. }
  split; [now repeat split|apply made_of_sets; [lia|exact Q]].
Qed.

(** ** C122 *)
Theorem C122_vector m (w : Z) (x : T) src v (l : list T) x0 : 0 <= w < 2 ^ 64 -> holds m src w v -> Z.of_nat (length l) < 2 ^ 64 ->
  builds_blank (vec_new w) m 1 1 w /\
  builds (vec_fill w x) m 1 1 w (fun _ => x) /\
  builds (vec_of_ptr w src) m 1 1 w v /\
  builds (vec_of_range src w) m 1 1 w v /\
  builds (vec_of_list l) m 1 1 (Z.of_nat (length l)) (fun i => nth (Z.to_nat i) l x0).
Proof.
  intros Hw Hv Hl. assert (E : 1 * 1 * w = w) by ring.
  split; [|split; [|split; [|split]]].
  - apply build_blank; cbn [shape1 s_depth s_height s_width s_size]; lia.
  - apply build_fill; cbn [shape1 s_depth s_height s_width s_size]; lia.
  - apply build_copy; try (cbn [shape1 s_depth s_height s_width s_size]; lia). now rewrite E.
  - apply build_copy; try (cbn [shape1 s_depth s_height s_width s_size]; lia). now rewrite E.
  - apply build_list; cbn [shape1 s_depth s_height s_width s_size]; lia.
Qed.

Theorem C122_matrix m (h w : Z) (x : T) src v : 0 <= h -> 0 <= w -> h * w < 2 ^ 64 -> holds m src (h * w) v ->
  builds_blank (mat_new h w) m 1 h w /\
  builds (mat_fill h w x) m 1 h w (fun _ => x) /\
  builds (mat_of_ptr h w src) m 1 h w v /\
  builds (mat_of_range src (h * w)) m 1 1 (h * w) v.
Proof.
  intros H0 W0 B Hv. assert (P : 0 <= h * w) by nia.
  assert (E : s_size (shape2 h w) = 1 * h * w) by (cbn [shape2 s_size]; rewrite u64_small; lia).
  split; [|split; [|split]].
  - apply build_blank; auto; lia.
  - apply build_fill; auto; lia.
  - apply build_copy; auto; try lia. now rewrite Z.mul_1_l.
  - apply build_copy; auto; try lia.
    + cbn [shape2 s_size]. rewrite u64_small; lia.
    + now rewrite !Z.mul_1_l.
Qed.
(** From a shape (depth, height, width) a matrix gets depth * height rows. *)
Theorem C122_matrix_of_shape m (s : shape) (x : T) src v : 0 <= s_depth s -> 0 <= s_height s -> 0 <= s_width s ->
  s_depth s * s_height s < 2 ^ 64 -> s_depth s * s_height s * s_width s < 2 ^ 64 ->
  holds m src (s_depth s * s_height s * s_width s) v ->
  builds_blank (mat_shape_new s) m 1 (s_depth s * s_height s) (s_width s) /\
  builds (mat_shape_fill s x) m 1 (s_depth s * s_height s) (s_width s) (fun _ => x) /\
  builds (mat_shape_ptr s src) m 1 (s_depth s * s_height s) (s_width s) v.
Proof.
  intros D0 H0 W0 B1 B Hv. assert (P : 0 <= s_depth s * s_height s) by nia.
  unfold mat_shape_new, mat_shape_fill, mat_shape_ptr. rewrite u64_small by lia.
  destruct (C122_matrix m (s_depth s * s_height s) (s_width s) x src v P W0 B Hv) as (A1 & A2 & A3 & _). auto.
Qed.

Theorem C122_tensor m (d h w : Z) (x : T) src v (l : list T) x0 : 0 <= d -> 0 <= h -> 0 <= w -> d * h * w < 2 ^ 64 ->
  holds m src (d * h * w) v -> Z.of_nat (length l) < 2 ^ 64 ->
  builds_blank (ten_new d h w) m d h w /\
  builds (ten_fill d h w x) m d h w (fun _ => x) /\
  builds (ten_of_ptr d h w src) m d h w v /\
  builds (ten_of_range src (d * h * w)) m 1 1 (d * h * w) v /\
  builds (ten_of_list l) m 1 1 (Z.of_nat (length l)) (fun i => nth (Z.to_nat i) l x0).
Proof.
  intros D0 H0 W0 B Hv Hl. assert (P : 0 <= d * h * w) by nia.
  assert (E : s_size (shape3 d h w) = d * h * w) by (cbn [shape3 s_size]; rewrite u64_small; lia).
  split; [|split; [|split; [|split]]].
  - apply build_blank; auto; lia.
  - apply build_fill; auto; lia.
  - apply build_copy; auto; lia.
  - apply build_copy; auto; try lia.
    + cbn [shape3 s_size]. rewrite u64_small; lia.
    + now rewrite !Z.mul_1_l.
  - apply build_list; auto; try lia. cbn [shape3 s_size]. rewrite u64_small; lia.
Qed.
(** From a shape: the same as from its dimensions (a shape built from them reports their product). *)
Theorem C122_tensor_of_shape m (s : shape) (x : T) src v : 0 <= s_size s -> s_size s = s_depth s * s_height s * s_width s ->
  holds m src (s_size s) v ->
  builds_blank (ten_shape_new s) m (s_depth s) (s_height s) (s_width s) /\
  builds (ten_shape_fill s x) m (s_depth s) (s_height s) (s_width s) (fun _ => x) /\
  builds (ten_shape_ptr s src) m (s_depth s) (s_height s) (s_width s) v.
Proof.
  intros P E Hv. rewrite E in P, Hv. split; [|split].
  - now apply build_blank. - now apply build_fill. - now apply build_copy.
Qed.

(** resize(shape): a tensor takes the shape over, a matrix its height and width, a vector its width
    (as a column, see C09). *)
Theorem C122_resize_by_shape t m (s : shape) : 0 <= s_depth s -> 0 <= s_height s -> 0 <= s_width s ->
  s_depth s * s_height s * s_width s < 2 ^ 64 -> s_height s * s_width s < 2 ^ 64 -> s_width s < 2 ^ 64 -> owned m (t_data t) ->
  rebuilds (ten_resize_shape t s) t m (s_depth s) (s_height s) (s_width s) (s_depth s * s_height s * s_width s) /\
  rebuilds (mat_resize_shape t s) t m (s_depth (t_shape t)) (s_height s) (s_width s) (s_height s * s_width s) /\
  rebuilds (vec_resize_shape t s) t m 1 (s_width s) 1 (s_width s).
Proof.
  intros D0 H0 W0 B B1 B2 Ow. destruct s as [d h w z]. cbn [s_depth s_height s_width s_size] in *.
  assert (P : 0 <= d * h * w) by nia. assert (P1 : 0 <= h * w) by nia.
  assert (Q : forall n s, 0 <= n -> s_size s = n -> rebuilds (free (t_data t) ;;; let* p := alloc n in ret (mk_tensor p s)) t m (s_depth s) (s_height s) (s_width s) n).
  { intros n s Hn Es. destruct (wp_elim _ _ _ _ (wp_realloc (t_data t) n m s Hn Ow)) as (t' & m' & R & -> & Lv & Fr & K & _).
    exists (mk_tensor (Ptr (length m) 0) s), m'. split; [exact R|]. now repeat split; try apply K. }
  split; [|split].
  - unfold ten_resize_shape, ten_resize. cbn [s_depth s_height s_width]. cbv zeta.
    replace (s_size (shape3 d h w)) with (d * h * w) by (cbn [shape3 s_size]; rewrite u64_small; lia).
    apply (Q (d * h * w) (shape3 d h w)); [exact P|]. cbn [shape3 s_size]. rewrite u64_small; lia.
  - unfold mat_resize_shape, mat_resize. cbn [s_depth s_height s_width]. cbv zeta. cbn [s_size]. rewrite u64_small by lia.
    apply (Q (h * w) (mk_shape (s_depth (t_shape t)) h w (h * w))); [exact P1|reflexivity].
  - unfold vec_resize_shape, vec_resize. cbn [s_depth s_height s_width]. cbv zeta.
    apply (Q w (shape3 1 w 1)); [exact W0|]. cbn [shape3 s_size]. rewrite u64_small; lia.
Qed.

(** Vector reshape changes the reported width only. *)
Theorem C122_vector_reshape t (w : Z) :
  let t' := vec_reshape t w in
  t_data t' = t_data t /\ t_size t' = t_size t /\ s_width (t_shape t') = w /\
  s_depth (t_shape t') = s_depth (t_shape t) /\ s_height (t_shape t') = s_height (t_shape t).
Proof. repeat split. Qed.

(** Views refer to the given memory and report the given dimensions; a matrix view of a shape has
    depth * height rows. *)
Theorem C122_views (p : ptr) (d h w : Z) : 0 <= d -> 0 <= h -> 0 <= w -> d * h < 2 ^ 64 -> w < 2 ^ 64 -> h * w < 2 ^ 64 -> d * h * w < 2 ^ 64 ->
  let views := [(vview_new w p, (1, 1, w)); (vview_shape (shape3 d h w) p, (1, 1, w)); (vview_range p w, (1, 1, w));
                (mview_new h w p, (1, h, w)); (mview_shape (shape3 d h w) p, (1, d * h, w)); (mview_range p w, (1, 1, w));
                (tview_new d h w p, (d, h, w)); (tview_shape (shape3 d h w) p, (d, h, w)); (tview_range p w, (1, 1, w))] in
  Forall (fun '(t, (a, b, c)) => t_data t = p /\ dims t a b c) views.
Proof.
  intros D0 H0 W0 B1 B2 B3 B. assert (P : 0 <= d * h * w) by nia. assert (P1 : 0 <= h * w) by nia. assert (P2 : 0 <= d * h) by nia.
  cbv zeta.
  repeat (apply Forall_cons; [split; [reflexivity|]; unfold dims; cbn [t_shape vview_new vview_shape vview_range mview_new mview_shape mview_range tview_new tview_shape tview_range shape1 shape2 shape3 s_depth s_height s_width];
    unfold t_size; cbn [t_shape s_size vview_new vview_shape vview_range mview_new mview_shape mview_range tview_new tview_shape tview_range shape1 shape2 shape3 s_depth s_height s_width];
    rewrite ?(u64_small (d * h)), ?u64_small by lia; repeat split; lia|]).
  constructor.
Qed.
End Props.

Module Examples.
Definition src : mem Z := [None; Some (map Some [3; 1; 4; 1; 5; 9])].
Lemma src_holds : holds src (Ptr 1 0) 6 (fun i => nth (Z.to_nat i) [3; 1; 4; 1; 5; 9] 0).
Proof. intros i Hi. assert (i = 0 \/ i = 1 \/ i = 2 \/ i = 3 \/ i = 4 \/ i = 5) as C by lia. repeat destruct C as [->|C]; [..|subst i]; reflexivity. Qed.
(** The hypotheses are met by a 1x2x3 tensor built from six elements in memory. *)
Example C122_applies : exists t m', ten_of_ptr 1 2 3 (Ptr 1 0) src = Ok (t, m') /\ dims t 1 2 3 /\
  made src 6 (fun i => nth (Z.to_nat i) [3; 1; 4; 1; 5; 9] 0) (t_data t) m'.
Proof. apply (build_copy (T := Z) src (shape3 1 2 3) (Ptr 1 0) _ 1 2 3); try reflexivity; [discriminate|exact src_holds]. Qed.
End Examples.

Print Assumptions C122_vector.
Print Assumptions C122_matrix.
Print Assumptions C122_matrix_of_shape.
Print Assumptions C122_tensor.
Print Assumptions C122_tensor_of_shape.
Print Assumptions C122_resize_by_shape.
Print Assumptions C122_vector_reshape.
Print Assumptions C122_views.
