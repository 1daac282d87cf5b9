(** * Proofs about Lique.v *)
From Verif Require Import Mem Scalar MemSpec MemLemmas Lique.

Section P.
Context {T : Type} `{NT : Num T}.
Implicit Types (m : mem T).

Lemma bind_eq A B (c : M T A) (f : A -> M T B) m a m' : c m = Ok (a, m') -> bind c f m = f a m'.
Proof. unfold bind. now intros ->. Qed.

Lemma step_room dst n m m1 i : room m dst n -> 0 <= i < n -> only (inside dst i) m m1 -> elem m1 dst i <> None.
Proof. intros Hr Hi Ho. eapply elem_exists_skel; [symmetry; apply Ho|apply Hr; auto]. Qed.

Lemma wp_detail_copy dst n src m v :
  room m dst n -> holds m src n v -> operand_ok dst n src ->
  wp (detail_copy dst n src) m (fun _ => sets dst n v m).
Proof.
  intros Hr Hs Hok. apply wp_map_loop; auto. intros i m1 Hi Ho.
  erewrite bind_eq by (apply load_ok; rewrite (operand_elem m m1 dst n) by eauto; apply Hs; auto).
  apply store_mset. eapply step_room; eauto.
Qed.
Lemma wp_detail_copy_list dst n l m d :
  room m dst n -> n <= Z.of_nat (length l) ->
  wp (detail_copy_list dst n l) m (fun _ => sets dst n (fun i => nth (Z.to_nat i) l d) m).
Proof.
  intros Hr Hl. apply wp_map_loop; auto. intros i m1 Hi Ho.
  unfold znth. destruct (Z.leb_spec 0 i); [|lia].
  rewrite (nth_error_nth' l d) by lia. apply store_mset. eapply step_room; eauto.
Qed.
Lemma wp_detail_fill dst n g m :
  room m dst n -> wp (detail_fill dst n g) m (fun _ => sets dst n g m).
Proof.
  intros Hr. apply wp_map_loop; auto. intros i m1 Hi Ho. apply store_mset. eapply step_room; eauto.
Qed.
Lemma wp_assign_val_cpy dst n x m :
  room m dst n -> wp (assign_val dst n OpCpy x) m (fun _ => sets dst n (fun _ => x) m).
Proof.
  intros Hr. apply (wp_map_loop dst n (fun _ => x)); auto. intros i m1 Hi Ho. apply store_mset.
  eapply step_room; eauto.
Qed.
Lemma dst_elem dst n m m1 i v : holds m dst n v -> 0 <= i < n -> only (inside dst i) m m1 ->
  elem m1 dst i = Some (Some (v i)).
Proof. intros Hh Hi Ho. rewrite (operand_elem m m1 dst n dst i); auto. now left. Qed.

Lemma op_assign_eq op dst i y m x :
  elem m dst i = Some (Some x) ->
  op_assign op dst i y m = Ok (tt, mset m dst i (op_val op x y)).
Proof.
  intros H. destruct op; unfold op_assign;
    try (erewrite bind_eq by (apply load_ok; eauto)); apply store_mset; congruence.
Qed.
Lemma wp_assign_val dst n op x m v :
  holds m dst n v ->
  wp (assign_val dst n op x) m (fun _ => sets dst n (fun i => op_val op (v i) x) m).
Proof.
  intros Hh. apply wp_map_loop; [eapply holds_room; eauto|]. intros i m1 Hi Ho.
  apply op_assign_eq. eapply dst_elem; eauto.
Qed.
Lemma wp_assign_src dst n op src m v u :
  holds m dst n v -> holds m src n u -> operand_ok dst n src ->
  wp (assign_src dst n op src) m (fun _ => sets dst n (fun i => op_val op (v i) (u i)) m).
Proof.
  intros Hh Hs Hok. apply wp_map_loop; [eapply holds_room; eauto|]. intros i m1 Hi Ho.
  erewrite bind_eq by (apply load_ok; rewrite (operand_elem m m1 dst n) by eauto; apply Hs; auto).
  apply op_assign_eq. eapply dst_elem; eauto.
Qed.
Lemma wp_assign_src_cpy dst n src m u :
  room m dst n -> holds m src n u -> operand_ok dst n src ->
  wp (assign_src dst n OpCpy src) m (fun _ => sets dst n u m).
Proof.
  intros Hh Hs Hok. apply wp_map_loop; auto. intros i m1 Hi Ho.
  erewrite bind_eq by (apply load_ok; rewrite (operand_elem m m1 dst n) by eauto; apply Hs; auto).
  apply store_mset. eapply step_room; eauto.
Qed.
Lemma wp_assign_val_src dst n op x src m u :
  room m dst n -> holds m src n u -> operand_ok dst n src ->
  wp (assign_val_src dst n op x src) m (fun _ => sets dst n (fun i => op_val op x (u i)) m).
Proof.
  intros Hh Hs Hok. apply wp_map_loop; auto. intros i m1 Hi Ho.
  erewrite bind_eq by (apply load_ok; rewrite (operand_elem m m1 dst n) by eauto; apply Hs; auto).
  apply store_mset. eapply step_room; eauto.
Qed.
Lemma wp_assign_lhs_rhs dst n op lhs rhs m v u :
  room m dst n -> holds m lhs n v -> holds m rhs n u ->
  operand_ok dst n lhs -> operand_ok dst n rhs ->
  wp (assign_lhs_rhs dst n op lhs rhs) m (fun _ => sets dst n (fun i => op_val op (v i) (u i)) m).
Proof.
  intros Hh Hl Hs Hokl Hok. apply wp_map_loop; auto. intros i m1 Hi Ho.
  erewrite bind_eq by (apply load_ok; rewrite (operand_elem m m1 dst n) by eauto; apply Hl; auto).
  erewrite bind_eq by (apply load_ok; rewrite (operand_elem m m1 dst n) by eauto; apply Hs; auto).
  apply store_mset. eapply step_room; eauto.
Qed.
Lemma wp_detail_apply dst n f m v :
  holds m dst n v -> wp (detail_apply dst n f) m (fun _ => sets dst n (fun i => f (v i)) m).
Proof.
  intros Hh. apply wp_map_loop; [eapply holds_room; eauto|]. intros i m1 Hi Ho.
  erewrite bind_eq by (apply load_ok; eapply dst_elem; eauto).
  apply store_mset. erewrite dst_elem by eauto. congruence.
Qed.
Lemma wp_detail_apply_src dst n f src m u :
  room m dst n -> holds m src n u -> operand_ok dst n src ->
  wp (detail_apply_src dst n f src) m (fun _ => sets dst n (fun i => f (u i)) m).
Proof.
  intros Hh Hs Hok. apply wp_map_loop; auto. intros i m1 Hi Ho.
  erewrite bind_eq by (apply load_ok; rewrite (operand_elem m m1 dst n) by eauto; apply Hs; auto).
  apply store_mset. eapply step_room; eauto.
Qed.

(** ** null destination *)
Lemma mfor_first_ub n (body : Z -> M T unit) m k : 0 < n -> body 0 m = UB k -> mfor 0 n body m = UB k.
Proof.
  intros Hn Hb. unfold mfor, mfold. replace (Z.to_nat (n - 0)) with (S (Z.to_nat (n - 1))) by lia.
  cbn [mfold_n]. unfold bind at 1. now rewrite Hb.
Qed.
(** a loop that runs well up to [k] and hits undefined behaviour there *)
Lemma mfor_ub n k (body : Z -> M T unit) (I : Z -> mem T -> Prop) m u :
  0 <= k < n -> I 0 m ->
  (forall i m', 0 <= i < k -> I i m' -> wp (body i) m' (fun _ => I (i + 1))) ->
  (forall m', I k m' -> body k m' = UB u) ->
  mfor 0 n body m = UB u.
Proof.
  intros Hk H0 Hs Hu. unfold mfor, mfold. replace (n - 0) with n by lia.
  assert (G : forall d i m' r, 0 <= i -> i + Z.of_nat d = k -> k < i + Z.of_nat r -> I i m' ->
     mfold_n r i (fun i _ => body i) tt m' = UB u).
  { induction d; intros i m' r Hi Hd Hr HI; destruct r; try lia; cbn [mfold_n]; unfold bind at 1.
    - replace i with k in * by lia. now rewrite Hu.
    - specialize (Hs i m'). destruct (wp_elim _ _ _ _ (Hs ltac:(lia) HI)) as ([] & m2 & -> & H2).
      apply IHd; auto; lia. }
  apply (G (Z.to_nat k) 0); auto; lia.
Qed.

(** ** allocation + initialisation *)
Lemma live_alloc m n : 0 <= n -> live (m ++ [Some (repeat None (Z.to_nat n))]) (length m) n.
Proof.
  intros. eexists. split. { rewrite nth_error_app2, Nat.sub_diag by lia. reflexivity. }
  rewrite repeat_length. lia.
Qed.
Lemma keeps_app m x : keeps (fun _ => False) m (m ++ [x]).
Proof. split; [rewrite app_length; lia|]. intros. now rewrite nth_error_app1. Qed.
Lemma keeps_trans (X : nat -> Prop) m1 m2 m3 : keeps X m1 m2 -> keeps X m2 m3 -> keeps X m1 m3.
Proof. intros [A B] [C D]. split; [lia|]. intros. rewrite D, B by (auto; lia). auto. Qed.
Lemma keeps_weaken (X Y : nat -> Prop) m1 m2 : (forall b, X b -> Y b) -> keeps X m1 m2 -> keeps Y m1 m2.
Proof. intros H [A B]. split; auto. Qed.
Lemma keeps_cell (X : nat -> Prop) m m' b i c : keeps X m m' -> ~ X b -> cell m b i = Some c -> cell m' b i = Some c.
Proof. intros [_ H] Hb Hc. unfold cell in *. rewrite H; auto. apply cell_lt in Hc. auto. Qed.

Lemma nth_error_ext A (l l' : list A) : length l = length l' ->
  (forall k, nth_error l k = nth_error l' k) -> l = l'.
Proof.
  revert l'; induction l as [|x l IH]; destruct l' as [|y l']; simpl; intros Hl H; try lia; auto.
  f_equal. { specialize (H O). simpl in H. congruence. }
  apply IH; [lia|]. intros k. apply (H (S k)).
Qed.

(** cell-wise unchanged live block is an unchanged block *)
Lemma only_block W m m' b : only W m m' -> (forall i, ~ W b i) -> nth_error m' b = nth_error m b.
Proof.
  intros [Hs Hc] Hb. unfold skel in Hs.
  assert (Hn : nth_error (map (option_map (@length _)) m') b = nth_error (map (option_map (@length _)) m) b) by now rewrite Hs.
  rewrite !nth_error_map in Hn.
  destruct (nth_error m' b) as [[l'|]|] eqn:E', (nth_error m b) as [[l|]|] eqn:E; simpl in Hn; try congruence.
  injection Hn as Hn. do 2 f_equal. apply nth_error_ext; auto. intros k.
  specialize (Hc b (Z.of_nat k) (Hb _)). unfold cell in Hc. rewrite E, E' in Hc. unfold znth in Hc.
  destruct (Z.leb_spec 0 (Z.of_nat k)); [|lia]. now rewrite Nat2Z.id in Hc.
Qed.
Lemma only_keeps_fresh m m0 m' n : keeps (fun _ => False) m0 m -> (length m0 < length m)%nat ->
  only (inside (Ptr (length m0) 0) n) m m' -> keeps (fun _ => False) m0 m'.
Proof.
  intros [A B] Hlt Ho. split.
  - destruct Ho as [Hs _]. apply (f_equal (@length _)) in Hs. unfold skel in Hs. rewrite !map_length in Hs. lia.
  - intros b Hb _. rewrite (only_block _ m m' b Ho), B by (auto; simpl; lia). auto.
Qed.
Lemma live_skel m m' b n : skel m' = skel m -> live m b n -> live m' b n.
Proof.
  intros Hs (l & Hl & Hn). destruct (skel_live m m' b) as [l' Hl']; eauto.
  exists l'. split; auto. rewrite <- Hn. f_equal. symmetry. eapply skel_len; [symmetry; apply Hs|eauto|eauto].
Qed.

Lemma skel_length m m' : skel m' = skel m -> length m' = length m.
Proof. intros H. apply (f_equal (@length _)) in H. unfold skel in H. now rewrite !map_length in H. Qed.

Lemma made_of_sets m n v m' : 0 <= n ->
  sets (Ptr (length m) 0) n v (m ++ [Some (repeat None (Z.to_nat n))]) m' ->
  made m n v (Ptr (length m) 0) m'.
Proof.
  intros Hn [Hh Ho]. repeat split; auto.
  - eapply live_skel; [apply Ho|apply live_alloc; auto].
  - eapply only_keeps_fresh; [| |apply Ho]; [apply keeps_app|rewrite app_length; simpl; lia].
  - eapply (only_keeps_fresh _ m _ n); [| |apply Ho]; [apply keeps_app|rewrite app_length; simpl; lia].
  - destruct Ho as [Hs _]. apply skel_length in Hs. rewrite Hs, app_length. simpl. lia.
Qed.

Lemma holds_lt m b o n v : 0 < n -> holds m (Ptr b o) n v -> (b < length m)%nat.
Proof. intros Hn H. specialize (H 0 ltac:(lia)). simpl in H. eauto using cell_lt. Qed.

Lemma operand_fresh m n p v : holds m p n v -> operand_ok (Ptr (length m) 0) n p.
Proof.
  intros H. right. intros b i [-> Hi] Hp. destruct p as [|b' o]; simpl in *; auto.
  destruct Hp as [<- Hi']. apply holds_lt in H; lia.
Qed.

Lemma wp_alloc_copy n p m v : 0 <= n -> holds m p n v ->
  wp (detail_copy (Ptr (length m) 0) n p) (m ++ [Some (repeat None (Z.to_nat n))])
     (fun _ m' => made m n v (Ptr (length m) 0) m').
Proof.
  intros Hn Hh. eapply wp_conseq.
  - apply wp_detail_copy; [apply room_alloc|apply holds_app; eauto|eapply operand_fresh; eauto].
  - intros [] m' Hs. apply made_of_sets; auto.
Qed.
Lemma wp_alloc_fill n x m : 0 <= n ->
  wp (assign_val (Ptr (length m) 0) n OpCpy x) (m ++ [Some (repeat None (Z.to_nat n))])
     (fun _ m' => made m n (fun _ => x) (Ptr (length m) 0) m').
Proof.
  intros Hn. eapply wp_conseq; [apply wp_assign_val_cpy, room_alloc|].
  intros [] m' Hs. apply made_of_sets; auto.
Qed.

(** ** releasing *)
Definition released m (p : ptr) : mem T :=
  match p with Null => m | Ptr b _ => set_nth b None m end.
Lemma free_owned m p : owned m p -> free p m = Ok (tt, released m p).
Proof.
  destruct p as [|b o]; simpl; auto. intros [-> [l ->]]. simpl. auto.
Qed.
Lemma released_length m p : length (released m p) = length m.
Proof. destruct p; simpl; auto. apply set_nth_length. Qed.
Lemma keeps_released m p : keeps (owns_block p) m (released m p).
Proof.
  split; [rewrite released_length; lia|]. intros b Hb Hp. destruct p as [|b' o]; simpl in *; auto.
  rewrite nth_set_nth_other; auto.
Qed.
Lemma freed_released m b o : (exists l, nth_error m b = Some (Some l)) -> freed (released m (Ptr b o)) b.
Proof. intros [l Hl]. unfold freed. simpl. apply nth_set_nth_same. apply nth_error_Some. congruence. Qed.
Lemma holds_released m p q n v : (forall b i, inside q n b i -> ~ owns_block p b) ->
  holds m q n v -> holds (released m p) q n v.
Proof.
  intros Hd H i Hi. specialize (H i Hi). destruct q as [|b o]; simpl in *; [discriminate|].
  eapply keeps_cell; eauto using keeps_released. eapply (Hd b (o + i)). split; auto; lia.
Qed.
End P.
