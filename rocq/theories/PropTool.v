(** * Properties C21-C26: searching, statistics, concatenation, blocks, sampling *)
From Coq Require Import QArith Reals Lra.
From Verif Require Import Mem Scalar MemSpec MemLemmas Lique LiqueSpec LiqueProofs LiqueProofs2 Linear LinearProofs RSum InverseProofs Tool.
Open Scope Z_scope.

(** Specification: [c] is a strict weak order (e.g. < on numbers without NaN). *)
Definition strict_weak {T} (c : T -> T -> bool) : Prop :=
  (forall x, c x x = false) /\
  (forall x y z, c x y = true -> c y z = true -> c x z = true) /\
  (forall x y z, c x y = false -> c y z = false -> c x z = false).
(** [r] is the first index below [n] whose element no other element beats: nothing is
    beyond it, and everything before it is beaten by it. *)
Definition first_best {T} (c : T -> T -> bool) (n : Z) (f : Z -> T) (r : Z) : Prop :=
  0 <= r < n /\ (forall i, 0 <= i < n -> c (f r) (f i) = false) /\ (forall i, 0 <= i < r -> c (f i) (f r) = true).

Section Props.
Context {T : Type} `{NT : Num T}.
Implicit Types (m : mem T).

Lemma first_best_step (c : T -> T -> bool) i f r : strict_weak c -> 0 < i -> first_best c i f r ->
  first_best c (i + 1) f (if c (f r) (f i) then i else r).
Proof.
  intros (Irr & Tr & Ntr) Hi (Hr & A & B). destruct (c (f r) (f i)) eqn:E; split; try lia; split.
  - intros j Hj. destruct (Z.eq_dec j i) as [->|]; [apply Irr|].
    destruct (c (f i) (f j)) eqn:E2; auto. rewrite <- (A j) by lia. symmetry. eapply Tr; eauto.
  - intros j Hj. destruct (c (f j) (f i)) eqn:E2; auto. rewrite <- E. symmetry. apply (Ntr _ (f j)); auto.
  - intros j Hj. destruct (Z.eq_dec j i) as [->|]; auto. apply A. lia.
  - auto.
Qed.

(** ** C21 *)
(** the loop of [search], for any relation [P] between the number of elements seen, the data and the index held *)
Definition search_step (c : T -> T -> bool) (P : Z -> (Z -> T) -> Z -> Prop) : Prop :=
  (forall f, P 1 f 0) /\ (forall i f r, 0 < i -> P i f r -> P (i + 1) f (if c (f r) (f i) then i else r)) /\ (forall i f r, P i f r -> 0 <= r < i).
Lemma search_inv (c : T -> T -> bool) P p n f m : search_step c P -> 0 < n -> holds m p n f ->
  exists r, tl_search p n c m = Ok (r, m) /\ P n f r.
Proof.
  intros (P0 & PS & PR) Hn Hf. unfold tl_search. destruct (Z.eqb_spec n 0); [lia|].
  match goal with |- context [mfold ?a ?b ?body ?s] =>
    assert (W : wp (mfold a b body s) m (fun r m' => m' = m /\ P n f r)) end.
  { apply (wp_mfold _ 1 n _ (fun i r m' => m' = m /\ P i f r)); [lia|auto| |auto].
    intros i r m' Hi [-> Hr]. pose proof (PR _ _ _ Hr) as Hr'.
    eapply wp_bind, wp_load; [apply Hf; lia|]. eapply wp_bind, wp_load; [apply Hf; lia|].
    apply wp_ret. split; auto. apply PS; auto. lia. }
  apply wp_elim in W as (r & m' & -> & -> & Hr). eauto.
Qed.
Lemma first_best_search (c : T -> T -> bool) : strict_weak c -> search_step c (first_best c).
Proof.
  intros HC. split; [|split].
  - intros f. split; [lia|]. split; [|intros; lia]. intros i Hi. replace i with 0 by lia. apply HC.
  - intros i f r. now apply first_best_step.
  - intros i f r H. apply H.
Qed.
Lemma search_spec (c : T -> T -> bool) p n f m : strict_weak c -> 0 < n -> holds m p n f ->
  exists r, tl_search p n c m = Ok (r, m) /\ first_best c n f r.
Proof. intros HC. apply search_inv. now apply first_best_search. Qed.
Lemma swo_flip (c : T -> T -> bool) : strict_weak c -> strict_weak (fun x y => c y x).
Proof. intros (A & B & C). repeat split; eauto. Qed.

(** argmax/max and argmin/min, for every non-empty range, when < is a strict weak order:
    the smallest index of an extremal element; nothing is modified. *)
Theorem C21_argmax (p : ptr) (n : Z) (f : Z -> T) m :
  strict_weak ltb -> 0 < n -> holds m p n f ->
  exists r, tl_argmax p n m = Ok (r, m) /\ tl_max p n m = Ok (f r, m) /\
    0 <= r < n /\ (forall i, 0 <= i < n -> ltb (f r) (f i) = false) /\ (forall i, 0 <= i < r -> ltb (f i) (f r) = true).
Proof.
  intros HC Hn Hf. destruct (search_spec is_less p n f m) as (r & E & Hr); auto.
  exists r. split; [auto|]. split; [|apply Hr]. unfold tl_max. erewrite bind_eq by eauto.
  apply load_ok. apply Hf. apply Hr.
Qed.
Theorem C21_argmin (p : ptr) (n : Z) (f : Z -> T) m :
  strict_weak ltb -> 0 < n -> holds m p n f ->
  exists r, tl_argmin p n m = Ok (r, m) /\ tl_min p n m = Ok (f r, m) /\
    0 <= r < n /\ (forall i, 0 <= i < n -> ltb (f i) (f r) = false) /\ (forall i, 0 <= i < r -> ltb (f r) (f i) = true).
Proof.
  intros HC Hn Hf. destruct (search_spec is_bigger p n f m) as (r & E & Hr); auto.
  { apply (swo_flip ltb HC). }
  exists r. split; [auto|]. split; [|apply Hr]. unfold tl_min. erewrite bind_eq by eauto.
  apply load_ok. apply Hf. apply Hr.
Qed.
Theorem C21_empty (p : ptr) m : tl_argmax p 0 m = Ok (0, m) /\ tl_argmin p 0 m = Ok (0, m).
Proof. auto. Qed.

(** ** C22: Axis::X is right, Axis::Y is undefined behaviour for every matrix with a row *)
Lemma znth_nth_error A (l : list A) i x : 0 <= i -> nth_error l (Z.to_nat i) = x -> znth l i = x.
Proof. intros. unfold znth. destruct (Z.leb_spec 0 i); [auto|lia]. Qed.

Lemma search_x_inv (c : T -> T -> bool) P (t : tensor) m (h w : Z) (f : Z -> Z -> T) :
  search_step c P -> mat_is t h w -> 0 < h -> holds2 m (t_data t) h w f ->
  exists l, tl_search_x t c m = Ok (map Some l, m) /\ Z.of_nat (length l) = w /\
    forall n, 0 <= n < w -> exists r, znth l n = Some r /\ P h (fun i => f i n) r.
Proof.
  intros (P0 & PS & PR) Ht Hh Hf. pose proof Ht as (Eh & Ew & _ & _ & Hw & _). unfold tl_search_x. rewrite Eh, Ew.
  set (I := fun (i : Z) (n : Z) (v : list (option Z)) =>
    exists l, v = map Some l /\ Z.of_nat (length l) = w /\
      forall k, 0 <= k < w -> exists r, znth l k = Some r /\ P (if k <? n then i + 1 else i) (fun i => f i k) r).
  match goal with |- context [mfold ?a ?b ?body ?s] =>
    assert (W : wp (mfold a b body s) m (fun v m' => m' = m /\ I h 0 v)) end.
  { apply (wp_mfold _ 1 h _ (fun i v m' => m' = m /\ I i 0 v)); [lia| | |auto].
    - split; auto. exists (repeat 0 (Z.to_nat w)). split; [|split].
      + clear. induction (Z.to_nat w); simpl; congruence.
      + rewrite repeat_length. lia.
      + intros k Hk. exists 0. split.
        * apply znth_nth_error; [lia|]. rewrite nth_repeat. destruct (Nat.ltb_spec (Z.to_nat k) (Z.to_nat w)); auto; lia.
        * destruct (Z.ltb_spec k 0); [lia|]. apply P0.
    - intros i v m' Hi [-> Hv].
      apply (wp_mfold _ 0 w _ (fun n v m' => m' = m /\ I i n v)); auto.
      + intros n v' m' Hn [-> (l & -> & Hl & Hk)].
        destruct (Hk n Hn) as (r & Er & Hr). destruct (Z.ltb_spec n n); [lia|].
        pose proof (PR _ _ _ Hr) as Hr'.
        eapply wp_bind, wp_intro.
        { unfold vget. erewrite (znth_nth_error _ _ _ (Some (Some r))); [reflexivity|lia|].
          rewrite nth_error_map. unfold znth in Er. destruct (Z.leb_spec 0 n); [|lia]. now rewrite Er. }
        eapply wp_bind, wp_mat_get; eauto; try lia. eapply wp_bind, wp_mat_get; eauto; try lia.
        apply wp_ret. split; auto.
        pose proof (PS i (fun i => f i n) r ltac:(lia) Hr) as St. cbv beta in St.
        exists (if c (f r n) (f i n) then set_nth (Z.to_nat n) i l else l). split; [|split].
        * destruct (c (f r n) (f i n)); auto. now rewrite map_set_nth.
        * destruct (c (f r n) (f i n)); rewrite ?set_nth_length; auto.
        * intros k Hkw. destruct (Z.eq_dec k n) as [->|Hne].
          -- destruct (Z.ltb_spec n (n + 1)); [|lia].
             exists (if c (f r n) (f i n) then i else r). split; auto.
             destruct (c (f r n) (f i n)); auto. apply znth_set_same. lia.
          -- destruct (Hk k Hkw) as (r' & Er' & Hr2). exists r'. split.
             ++ destruct (c (f r n) (f i n)); auto. rewrite znth_set_other by lia. auto.
             ++ destruct (Z.ltb_spec k n), (Z.ltb_spec k (n + 1)); auto; lia.
      + intros v' m' [-> (l & -> & Hl & Hk)]. split; auto. exists l. split; [auto|]. split; [auto|].
        intros k Hkw. destruct (Hk k Hkw) as (r & Er & Hr). exists r. split; auto.
        destruct (Z.ltb_spec k w); [|lia]. destruct (Z.ltb_spec k 0); [lia|]. auto. }
  apply wp_elim in W as (v & m' & -> & -> & l & -> & Hl & Hk). exists l. split; [auto|]. split; [auto|].
  intros n Hn. destruct (Hk n Hn) as (r & Er & Hr). destruct (Z.ltb_spec n 0); [lia|]. eauto.
Qed.
Lemma search_x_spec (c : T -> T -> bool) (t : tensor) m (h w : Z) (f : Z -> Z -> T) :
  strict_weak c -> mat_is t h w -> 0 < h -> holds2 m (t_data t) h w f ->
  exists l, tl_search_x t c m = Ok (map Some l, m) /\ Z.of_nat (length l) = w /\
    forall n, 0 <= n < w -> exists r, znth l n = Some r /\ first_best c h (fun i => f i n) r.
Proof. intros HC. apply search_x_inv. now apply first_best_search. Qed.
(** argmax (compare = is_less) and argmin (compare = is_bigger) along Axis::X *)
Theorem C22_axis_x_partial (t : tensor) m (h w : Z) (f : Z -> Z -> T) :
  strict_weak ltb -> mat_is t h w -> 0 < h -> holds2 m (t_data t) h w f ->
  (exists l, tl_search_x t is_less m = Ok (map Some l, m) /\ Z.of_nat (length l) = w /\
     forall n, 0 <= n < w -> exists r, znth l n = Some r /\ first_best ltb h (fun i => f i n) r) /\
  (exists l, tl_search_x t is_bigger m = Ok (map Some l, m) /\ Z.of_nat (length l) = w /\
     forall n, 0 <= n < w -> exists r, znth l n = Some r /\ first_best (fun a b => ltb b a) h (fun i => f i n) r).
Proof.
  intros HC Ht Hh Hf. split; [now apply search_x_spec with (f := f)|].
  apply search_x_spec with (f := f); auto. apply (swo_flip ltb HC).
Qed.
Theorem C22_axis_y_refuted (c : T -> T -> bool) (t : tensor) m :
  0 < s_height (t_shape t) -> tl_search_y t c m = UB UninitRead.
Proof.
  intros Hh. unfold tl_search_y. unfold bind at 1.
  unfold mfold at 1. replace (Z.to_nat (s_height (t_shape t) - 0)) with (S (Z.to_nat (s_height (t_shape t) - 1))) by lia.
  cbn [mfold_n]. unfold bind at 1.
  destruct (Z_le_gt_dec (s_width (t_shape t)) 1) as [Hw|Hw].
  - unfold bind at 1. rewrite mfold_empty by lia. reflexivity.
  - unfold bind at 1. unfold mfold at 1.
    replace (Z.to_nat (s_width (t_shape t) - 1)) with (S (Z.to_nat (s_width (t_shape t) - 2))) by lia.
    reflexivity.
Qed.

(** ** C23: the computations, any scalar type *)
Lemma accumulate_ok p n (f : Z -> T) init m : 0 <= n -> holds m p n f ->
  tl_accumulate p n init m = Ok (zsum_from init n f, m).
Proof.
  intros Hn Hf. unfold tl_accumulate.
  match goal with |- ?c m = _ => assert (W : wp c m (fun s m' => s = zsum_from init n f /\ m' = m)) end.
  { apply (wp_mfold _ 0 n _ (fun i s m' => s = zsum_from init i f /\ m' = m)); auto.
    intros i s m' Hi [-> ->]. eapply wp_bind, wp_load; [apply Hf; lia|]. apply wp_ret.
    split; auto. now rewrite zsum_from_S by lia. }
  now apply wp_elim in W as (s & m' & -> & -> & ->).
Qed.
Lemma std_ok p n (f : Z -> T) b m : 0 <= n -> holds m p n f ->
  tl_std p n b m =
    let mu := div (zsum n f) (ofZ n) in
    Ok (nsqrt (div (zsum n (fun i => mul (sub (f i) mu) (sub (f i) mu))) (ofZ (n - (if b then 1 else 0)))), m).
Proof.
  intros Hn Hf. cbv zeta. unfold tl_std, tl_mean_init. rewrite bind_assoc.
  erewrite bind_eq by (apply accumulate_ok; eauto). rewrite zsum_from_zero.
  unfold bind at 1, ret at 1. set (mu := div (zsum n f) (ofZ n)).
  match goal with |- bind ?c _ m = _ => assert (W : wp c m (fun s m' => s = zsum n (fun i => mul (sub (f i) mu) (sub (f i) mu)) /\ m' = m)) end.
  { apply (wp_mfold _ 0 n _ (fun i s m' => s = zsum i (fun i => mul (sub (f i) mu) (sub (f i) mu)) /\ m' = m)); auto.
    intros i s m' Hi [-> ->]. eapply wp_bind, wp_load; [apply Hf; lia|]. apply wp_ret.
    split; auto. now rewrite zsum_S by lia. }
  apply wp_elim in W as (s & m' & E & -> & ->). erewrite bind_eq by apply E. reflexivity.
Qed.

(** ** C24: variadic concat *)
(** [l] is stored at [p]. *)
Definition stores m (p : ptr) (l : list T) : Prop :=
  forall i x, nth_error l i = Some x -> elem m p (Z.of_nat i) = Some (Some x).
Definition len {A} (l : list A) : Z := Z.of_nat (length l).

Lemma stores_holds m p l d : stores m p l -> holds m p (len l) (fun i => nth (Z.to_nat i) l d).
Proof.
  intros H i Hi. unfold len in Hi. replace i with (Z.of_nat (Z.to_nat i)) at 1 by lia.
  apply H. apply nth_error_nth'. lia.
Qed.

Lemma wp_concat_into (out : tensor) : forall ts ls at_ m N,
  Forall2 (fun t l => t_size t = len l /\ stores m (t_data t) l /\ disjoint (t_data out) N (t_data t) (len l)) ts ls ->
  0 <= at_ -> at_ + len (concat ls) <= N -> room m (t_data out) N ->
  wp (concat_into out at_ ts) m (fun _ m' =>
    stores m' (padd (t_data out) at_) (concat ls) /\ only (inside (padd (t_data out) at_) (len (concat ls))) m m').
Proof.
  induction ts as [|t ts IH]; intros ls at_ m N HF Ha HN Hr; inversion HF as [|? l ? ls' (Es & St & D) HF']; subst; cbn [concat_into concat] in *.
  - apply wp_ret. split; [intros i x; destruct i; discriminate|apply only_refl].
  - assert (HL : len (l ++ concat ls') = len l + len (concat ls')) by (unfold len; rewrite app_length; lia).
    rewrite HL in HN. assert (0 <= len l /\ 0 <= len (concat ls')) as [L1 L2] by (unfold len; lia).
    eapply wp_bind'.
    { rewrite Es. apply (wp_detail_copy (padd (t_data out) at_) (len l) (t_data t) m (fun i => nth (Z.to_nat i) l zero)).
      - eapply room_sub; [| |apply Hr]; lia.
      - now apply stores_holds.
      - right. eapply disjoint_sub_l; eauto. lia. }
    intros [] m1 [H1 O1]. rewrite Es.
    assert (O1' : only (inside (t_data out) N) m m1).
    { eapply only_weaken; [|apply O1]. intros b o Hb. eapply inside_padd; [| |exact Hb]; lia. }
    eapply wp_conseq.
    { apply (IH ls' (at_ + len l) m1 N); try lia.
      - clear -HF' O1'. induction HF' as [|t' l' ts' ls' (E & S & D) HF IH]; constructor; auto.
        split; [auto|]. split; [|auto]. intros i x Hx.
        erewrite only_elem; [apply S; eauto|apply O1'|]. intros b o Hb Hb'.
        apply (D b o); auto. destruct (t_data t'); simpl in *; auto.
        assert (i < length l')%nat by (apply nth_error_Some; congruence). unfold len. lia.
      - eapply only_room; eauto. }
    intros [] m2 [H2 O2].
    split.
    + intros i x Hx. destruct (Nat.lt_ge_cases i (length l)) as [Hlt|Hge].
      * rewrite nth_error_app1 in Hx by auto.
        erewrite only_elem; [|apply O2|].
        -- rewrite (H1 (Z.of_nat i)) by (unfold len; lia). rewrite Nat2Z.id. now rewrite (nth_error_nth l i zero Hx).
        -- intros b o. destruct (t_data out); simpl; auto. unfold len. intros [-> X] [_ Y]. lia.
      * rewrite nth_error_app2 in Hx by auto. specialize (H2 _ _ Hx).
        rewrite !elem_padd in *. rewrite <- H2. f_equal. unfold len. lia.
    + rewrite HL. eapply only_trans; [eapply only_weaken; [|apply O1]|eapply only_weaken; [|apply O2]].
      * intros b o. destruct (t_data out); simpl; auto. lia.
      * intros b o. destruct (t_data out); simpl; auto. lia.
Qed.

Lemma total_size_exact : forall (ts : list tensor) (ls : list (list T)),
  Forall2 (fun t l => t_size t = len l) ts ls -> len (concat ls) < 2 ^ 64 -> total_size ts = len (concat ls).
Proof.
  intros ts ls H. induction H as [|t l ts ls E HF IH]; intros Hs; auto. cbn [total_size fold_right concat] in *.
  assert (HL : len (l ++ concat ls) = len l + len (concat ls)) by (unfold len; rewrite app_length; lia).
  rewrite HL in *. assert (0 <= len l /\ 0 <= len (concat ls)) as [L1 L2] by (unfold len; lia).
  fold (total_size ts). rewrite IH, E by lia. apply u64_small. lia.
Qed.
(** [concat(a, b, ...)]: a fresh vector holding the operands' elements one after another. *)
Theorem C24_concat_variadic_partial (ts : list tensor) (ls : list (list T)) m :
  Forall2 (fun t l => t_size t = len l /\ stores m (t_data t) l) ts ls -> len (concat ls) < 2 ^ 64 ->
  exists r m', tl_concat ts m = Ok (r, m') /\ t_size r = len (concat ls) /\
    t_data r = Ptr (length m) 0 /\ live m' (length m) (len (concat ls)) /\
    stores m' (t_data r) (concat ls) /\ keeps (fun _ => False) m m'.
Proof.
  intros HF Hs. unfold tl_concat, vec_new.
  rewrite (total_size_exact ts ls).
  2:{ clear -HF NT. induction HF as [|t l ts ls (E & _) HF IH]; constructor; auto. }
  2:{ auto. }
  set (N := len (concat ls)). assert (HN : 0 <= N) by (unfold N, len; lia).
  set (r := mk_tensor (Ptr (length m) 0) (shape1 N)). set (m0 := m ++ [Some (repeat None (Z.to_nat N))]).
  assert (W : wp (concat_into r 0 ts) m0 (fun _ m' =>
    stores m' (padd (t_data r) 0) (concat ls) /\ only (inside (padd (t_data r) 0) (len (concat ls))) m0 m')).
  { apply (wp_concat_into r ts ls 0 m0 N); try lia.
    - subst m0 r. cbn [t_data]. clear -HF NT. clearbody N. revert HF. generalize ts, ls. clear ts ls.
      intros ts ls HF. induction HF as [|t l ts ls (E & S) HF IH]; constructor; auto.
      split; [auto|]. split.
      + intros i x Hx. apply elem_app. auto.
      + eapply disjoint_fresh. apply (stores_holds m _ l zero). auto.
    - apply room_alloc. }
  apply wp_elim in W as ([] & m' & E & St & O). rewrite padd_0 in *.
  exists r, m'. split; [|split; [auto|split; [auto|]]].
  - revert E. unfold bind, alloc, ret. cbn [s_size shape1]. fold m0 r. intros ->. auto.
  - destruct (made_of_sets m N (fun i => nth (Z.to_nat i) (concat ls) zero) m' HN) as (_ & A & _ & B & _).
    { split; [apply stores_holds; auto|apply O]. }
    auto.
Qed.

(** [concat(container)]: the result is never written. *)
Definition wlp {A} (c : M T A) m (Q : A -> mem T -> Prop) : Prop :=
  match c m with Ok (a, m') => Q a m' | UB _ => True end.
Lemma wlp_bind A B (c : M T A) (f : A -> M T B) m (Q : B -> mem T -> Prop) (R : A -> mem T -> Prop) :
  wlp c m R -> (forall a m', R a m' -> wlp (f a) m' Q) -> wlp (bind c f) m Q.
Proof. unfold wlp, bind. destruct (c m) as [[a m']|]; auto. intros H1 H2. now apply H2. Qed.
Lemma wlp_mfor lo hi body (I : mem T -> Prop) m :
  I m -> (forall i m', I m' -> wlp (body i) m' (fun _ => I)) -> wlp (mfor lo hi body) m (fun _ => I).
Proof.
  intros H0 Hs. unfold mfor, mfold. generalize (Z.to_nat (hi - lo)) as n. intros n. revert lo m H0.
  induction n; intros lo m H0; cbn [mfold_n]; [exact H0|].
  eapply wlp_bind; [apply Hs; auto|]. intros [] m' H. now apply IHn.
Qed.
Lemma wlp_copy dst n src m b0 : (forall b o, dst = Ptr b o -> b <> b0) ->
  wlp (detail_copy dst n src) m (fun _ m' => nth_error m' b0 = nth_error m b0).
Proof.
  intros Hb. apply (wlp_mfor 0 n _ (fun m' => nth_error m' b0 = nth_error m b0)); auto.
  intros i m' H. eapply (wlp_bind _ _ _ _ _ _ (fun _ m2 => m2 = m')).
  - unfold wlp, load. destruct src; auto. destruct (nth_error m' b) as [[l|]|]; auto. destruct (znth l (o + i)) as [[x|]|]; auto.
  - intros x m2 ->. unfold wlp, store. destruct dst as [|b o]; auto. destruct (nth_error m' b) as [[l|]|]; auto.
    destruct (znth l (o + i)); auto. rewrite nth_set_nth_other; auto. eapply Hb; eauto.
Qed.
Theorem C24_concat_container_refuted (ts : list tensor) m :
  (forall t b o, In t ts -> t_data t = Ptr b o -> (b < length m)%nat) ->
  match tl_concat_list ts m with
  | Ok (r, m') => forall i x, elem m' (t_data r) i <> Some (Some x)
  | UB _ => True
  end.
Proof.
  intros Hb. unfold tl_concat_list, vec_new, bind, alloc, ret.
  set (N := s_size _). set (m0 := m ++ _).
  assert (G : forall ts at_ m1, (forall t b o, In t ts -> t_data t = Ptr b o -> (b < length m)%nat) ->
     wlp (concat_shadowed at_ ts) m1 (fun _ m' => nth_error m' (length m) = nth_error m1 (length m))).
  { clear. induction ts as [|t ts IH]; intros at_ m1 Hb; cbn [concat_shadowed]; [reflexivity|].
    eapply wlp_bind; [apply (wlp_copy _ _ _ _ (length m))|].
    - intros b o E. destruct (t_data t) as [|b' o'] eqn:Et; [discriminate|]. injection E as -> _.
      specialize (Hb t b o' (or_introl eq_refl) Et). lia.
    - intros [] m2 H2. cbv beta in H2. rewrite <- H2. apply IH. intros t' b o Ht. apply Hb. now right. }
  specialize (G ts 0 m0 Hb). unfold wlp in G.
  destruct (concat_shadowed 0 ts m0) as [[[] m']|]; auto. intros i x. cbn. unfold cell. rewrite G.
  unfold m0. rewrite nth_error_app2, Nat.sub_diag by lia. cbn. unfold znth.
  destruct (0 <=? i); [|discriminate]. rewrite nth_repeat. destruct (_ <? _)%nat; discriminate.
Qed.

(** ** C25 *)
(** offsets of the rectangle with top-left [A], [h] rows, [w] columns, in rows of width [W],
    in row-major order *)
Definition zseq (lo n : Z) : list Z := map (fun k => lo + Z.of_nat k) (seq 0 (Z.to_nat n)).
Definition rectangle (A h w W : Z) : list Z := flat_map (fun r => zseq (A + r * W) w) (zseq 0 h).

Lemma zseq_0 lo n : n <= 0 -> zseq lo n = [].
Proof. intros. unfold zseq. now replace (Z.to_nat n) with O by lia. Qed.
Lemma zseq_cons lo n : 0 < n -> zseq lo n = lo :: zseq (lo + 1) (n - 1).
Proof.
  intros. unfold zseq. replace (Z.to_nat n) with (S (Z.to_nat (n - 1))) by lia. cbn [seq map].
  f_equal; [lia|]. rewrite <- seq_shift, map_map. apply map_ext. intros. lia.
Qed.
Lemma rectangle_S A h w W : 0 < h -> rectangle A h w W = zseq A w ++ rectangle (A + W) (h - 1) w W.
Proof.
  intros Hh. unfold rectangle. rewrite zseq_cons by auto. cbn [flat_map]. f_equal; [f_equal; lia|].
  unfold zseq at 2 4. rewrite !flat_map_concat_map, !map_map. f_equal. apply map_ext. intros k. f_equal. lia.
Qed.
Lemma mlist_app A B (l l' : list A) (body : A -> B -> M T B) b m :
  mlist (l ++ l') body b m = bind (mlist l body b) (fun b' => mlist l' body b') m.
Proof.
  revert b m; induction l as [|x l IH]; intros b m; cbn [app mlist]; [reflexivity|].
  unfold bind. destruct (body x b m) as [[b' m']|]; auto. rewrite IH. reflexivity.
Qed.
Lemma mfold_mlist A lo n (body : Z -> A -> M T A) a m :
  mfold lo (lo + n) body a m = mlist (zseq lo n) body a m.
Proof.
  unfold mfold. replace (lo + n - lo) with n by lia. unfold zseq.
  generalize (Z.to_nat n) as k. clear n. intros k. revert lo a m. induction k; intros lo a m; [reflexivity|].
  cbn [mfold_n seq map mlist]. unfold bind. replace (lo + Z.of_nat 0) with lo by lia.
  destruct (body lo a m) as [[a' m']|]; auto. rewrite (IHk (lo + 1) a' m').
  rewrite <- seq_shift, map_map. replace (map (fun x => lo + Z.of_nat (S x)) (seq 0 k))
    with (map (fun x => lo + 1 + Z.of_nat x) (seq 0 k)); auto. apply map_ext. intros. lia.
Qed.
Lemma block_rounds_spec A (func : Z -> A -> M T A) w W h : 2 <= w < W -> 0 <= h ->
  forall fuel first last a m, last = first + (h - 1) * W + w - 1 -> (Z.to_nat h <= fuel)%nat ->
  block_rounds fuel first last w W func a m = mlist (rectangle first h w W) func a m.
Proof.
  intros Hw. revert h. 
  assert (G : forall k fuel first last a m, last = first + (Z.of_nat k - 1) * W + w - 1 -> (k <= fuel)%nat ->
    block_rounds fuel first last w W func a m = mlist (rectangle first (Z.of_nat k) w W) func a m).
  { induction k; intros fuel first last a m Hl Hf.
    - unfold rectangle. rewrite zseq_0 by lia. cbn [flat_map mlist]. destruct fuel; cbn [block_rounds];
        destruct (Z.ltb_spec first last); auto; lia.
    - destruct fuel; [lia|]. cbn [block_rounds]. destruct (Z.ltb_spec first last); [|nia].
      rewrite rectangle_S by lia. rewrite mlist_app. unfold bind at 1 2.
      rewrite mfold_mlist. destruct (mlist (zseq first w) func a m) as [[a' m']|]; auto.
      replace (Z.of_nat (S k) - 1) with (Z.of_nat k) by lia.
      replace (first + w + (W - w)) with (first + W) by lia. apply IHk; nia. }
  intros h Hh fuel first last a m Hl Hf. rewrite <- (Z2Nat.id h) in Hl |- * by lia. apply G; auto.
Qed.
(** For 2 <= w < W the rectangle is visited exactly once, in row-major order, whatever the
    function does. *)
Theorem C25_block_loop_partial (A : Type) (func : Z -> A -> M T A) (a : A) m (first h w W : Z) :
  2 <= w < W -> 1 <= h ->
  tl_block_loop first (first + (h - 1) * W + (w - 1)) W func a m = mlist (rectangle first h w W) func a m.
Proof.
  intros Hw Hh. unfold tl_block_loop. destruct (Z.eqb_spec W 0); [lia|].
  replace (first + (h - 1) * W + (w - 1) - first + 1) with (w + (h - 1) * W) by lia.
  rewrite Z_mod_plus_full, Z.mod_small by lia.
  apply block_rounds_spec; try lia. nia.
Qed.
(** Full-width rectangles: nothing at all is visited. *)
Theorem C25_full_width_refuted (A : Type) (func : Z -> A -> M T A) (a : A) m (first h W : Z) :
  2 <= W -> 1 <= h ->
  tl_block_loop first (first + (h - 1) * W + (W - 1)) W func a m = Ok (a, m).
Proof.
  intros HW Hh. unfold tl_block_loop. destruct (Z.eqb_spec W 0); [lia|].
  replace (first + (h - 1) * W + (W - 1) - first + 1) with (0 + h * W) by lia.
  rewrite Z_mod_plus_full, Z.mod_small by lia.
  assert (G : forall k fuel f l, l - f < Z.of_nat k * W -> (k <= fuel)%nat ->
    block_rounds fuel f l 0 W func a m = Ok (a, m)).
  { induction k; intros fuel f l Hl Hf.
    - destruct fuel; cbn [block_rounds]; destruct (Z.ltb_spec f l); auto; lia.
    - destruct fuel; [lia|]. cbn [block_rounds]. destruct (Z.ltb_spec f l); auto.
      unfold bind. rewrite mfold_empty by lia. unfold ret. apply IHk; lia. }
  apply (G (Z.to_nat h)); nia.
Qed.
(** One-column rectangles: the last row is missed. *)
Theorem C25_one_column_refuted (A : Type) (func : Z -> A -> M T A) (a : A) m (first h W : Z) :
  2 <= W -> 1 <= h ->
  tl_block_loop first (first + (h - 1) * W) W func a m = mlist (rectangle first (h - 1) 1 W) func a m.
Proof.
  intros HW Hh. unfold tl_block_loop. destruct (Z.eqb_spec W 0); [lia|].
  replace (first + (h - 1) * W - first + 1) with (1 + (h - 1) * W) by lia.
  rewrite Z_mod_plus_full, Z.mod_small by lia.
  assert (G : forall k fuel f l a m, l = f + Z.of_nat k * W -> (k <= fuel)%nat ->
    block_rounds fuel f l 1 W func a m = mlist (rectangle f (Z.of_nat k) 1 W) func a m).
  { clear a m. induction k; intros fuel f l a m Hl Hf.
    - unfold rectangle. rewrite zseq_0 by lia. cbn [flat_map mlist].
      destruct fuel; cbn [block_rounds]; destruct (Z.ltb_spec f l); auto; lia.
    - destruct fuel; [lia|]. cbn [block_rounds]. destruct (Z.ltb_spec f l); [|nia].
      rewrite rectangle_S by lia. rewrite mlist_app. unfold bind at 1 2.
      rewrite mfold_mlist. destruct (mlist (zseq f 1) func a m) as [[a' m']|]; auto.
      replace (Z.of_nat (S k) - 1) with (Z.of_nat k) by lia.
      replace (f + 1 + (W - 1)) with (f + W) by lia. apply IHk; lia. }
  rewrite <- (Z2Nat.id (h - 1)) by lia. apply G; nia.
Qed.
(** With a matrix of width 1 the one-column rectangle is the full width: nothing is visited. *)
Theorem C25_width_one_refuted (A : Type) (func : Z -> A -> M T A) (a : A) m (first h : Z) :
  1 <= h -> tl_block_loop first (first + (h - 1)) 1 func a m = Ok (a, m).
Proof.
  intros Hh. unfold tl_block_loop. cbn [Z.eqb]. rewrite Z.mod_1_r.
  assert (G : forall k fuel f l, l - f <= Z.of_nat k -> (k <= fuel)%nat ->
    block_rounds fuel f l 0 1 func a m = Ok (a, m)).
  { induction k; intros fuel f l Hl Hf.
    - destruct fuel; cbn [block_rounds]; destruct (Z.ltb_spec f l); auto; lia.
    - destruct fuel; [lia|]. cbn [block_rounds]. destruct (Z.ltb_spec f l); auto.
      unfold bind. rewrite mfold_empty by lia. unfold ret. apply IHk; lia. }
  change (match first + (h - 1) - first + 1 with _ => _ end) with 0 || idtac.
  apply (G (Z.to_nat (first + (h - 1) - first))); lia.
Qed.

(** ** C26 *)
Lemma multinomial_inv (Q : Z -> Prop) (p : ptr) (n : Z) (f : Z -> T) (g rand_max : Z) m :
  (exists k, tl_search p n is_less m = Ok (k, m) /\ 0 <= k < n /\ Q k) -> 0 < n -> holds m p n f ->
  let r := div (ofZ g) (ofZ rand_max) in
  let cumulative i := zsum (i + 1) f in
  exists k, tl_multinomial p n g rand_max m = Ok (k, m) /\ 0 <= k < n /\
    ((ltb r (cumulative k) = true /\ forall i, 0 <= i < k -> ltb r (cumulative i) = false) \/
     ((forall i, 0 <= i < n -> ltb r (cumulative i) = false) /\ Q k)).
Proof.
  intros HC Hn Hf r cum. unfold tl_multinomial. fold r.
  match goal with |- context [bind ?c _ m] =>
    assert (W : wp c m (fun st m' => m' = m /\ match snd st with
       | None => forall i, 0 <= i < n -> ltb r (cum i) = false
       | Some k => 0 <= k < n /\ ltb r (cum k) = true /\ forall i, 0 <= i < k -> ltb r (cum i) = false end)) end.
  { apply (wp_mfold _ 0 n _ (fun i st m' => m' = m /\ match snd st with
       | None => fst st = zsum i f /\ forall j, 0 <= j < i -> ltb r (cum j) = false
       | Some k => 0 <= k < i /\ ltb r (cum k) = true /\ forall i, 0 <= i < k -> ltb r (cum i) = false end)); [lia| | |].
    - split; auto. cbn. split; auto. intros; lia.
    - intros i [acc [k|]] m' Hi [-> H]; cbn [fst snd] in *.
      + apply wp_ret. split; auto. cbn [snd]. destruct H as (A & B & C). split; [lia|auto].
      + destruct H as [-> H]. eapply wp_bind, wp_load; [apply Hf; lia|]. apply wp_ret. split; auto. cbn [fst snd].
        assert (E : add (zsum i f) (f i) = cum i) by (unfold cum; now rewrite zsum_S by lia).
        rewrite E. destruct (ltb r (cum i)) eqn:L.
        * split; [lia|]. auto.
        * split; [reflexivity|]. intros j Hj. destruct (Z.eq_dec j i) as [->|]; auto. apply H. lia.
    - intros [acc [k|]] m' [-> H]; cbn [fst snd] in *; split; auto. apply H. }
  apply wp_elim in W as ([acc [k|]] & m' & E & -> & H); cbn [snd] in H; erewrite bind_eq by apply E; cbn [snd].
  - exists k. split; [reflexivity|]. tauto.
  - destruct HC as (k & Ek & Hk & HQ). exists k. split; [auto|].
    split; [apply Hk|]. right. split; auto.
Qed.
Theorem C26_multinomial (p : ptr) (n : Z) (f : Z -> T) (g rand_max : Z) m :
  strict_weak ltb -> 0 < n -> holds m p n f ->
  let r := div (ofZ g) (ofZ rand_max) in
  let cumulative i := zsum (i + 1) f in
  exists k, tl_multinomial p n g rand_max m = Ok (k, m) /\ 0 <= k < n /\
    ((ltb r (cumulative k) = true /\ forall i, 0 <= i < k -> ltb r (cumulative i) = false) \/
     ((forall i, 0 <= i < n -> ltb r (cumulative i) = false) /\ first_best ltb n f k)).
Proof.
  intros HC Hn Hf. apply (multinomial_inv (first_best ltb n f)); auto.
  destruct (search_spec is_less p n f m HC Hn Hf) as (k & Ek & Hk). exists k. split; [exact Ek|]. split; [apply Hk|exact Hk].
Qed.
End Props.

(** ** C21/C23 in exact arithmetic *)
Lemma Rltb_false x y : Rltb x y = false <-> (y <= x)%R.
Proof. unfold Rltb. destruct (Rlt_dec x y); split; intros; try discriminate; auto; lra. Qed.
Theorem C21_real_order_is_strict_weak : strict_weak (ltb (T := R)).
Proof.
  split; [|split]; cbn [ltb Num_R].
  - intros x. apply Rltb_false. lra.
  - intros x y z. rewrite !Rltb_spec. lra.
  - intros x y z. rewrite !Rltb_false. lra.
Qed.
Theorem C23_statistics (p : ptr) (n : Z) (f : Z -> R) (m : mem R) (init : R) :
  0 < n -> holds m p n f ->
  let mean := (zsum n f / IZR n)%R in
  let variance k := (zsum n (fun i => (f i - mean) ^ 2) / IZR k)%R in
  tl_accumulate p n init m = Ok ((init + zsum n f)%R, m) /\
  tl_mean p n m = Ok (mean, m) /\
  tl_std p n false m = Ok (sqrt (variance n), m) /\
  tl_std p n true m = Ok (sqrt (variance (n - 1)), m).
Proof.
  intros Hn Hf mean var. split; [|split; [|split]].
  - rewrite (accumulate_ok p n f) by (auto; lia). now rewrite zsum_from_R.
  - unfold tl_mean, tl_mean_init. erewrite bind_eq by (apply (accumulate_ok p n f); [lia|auto]).
    rewrite zsum_from_zero. reflexivity.
  - rewrite (std_ok p n f) by (auto; lia). cbv zeta. do 2 f_equal. cbn. unfold var. do 2 f_equal.
    + apply zsum_ext. intros. cbn. unfold mean. lra.
    + f_equal. lia.
  - rewrite (std_ok p n f) by (auto; lia). cbv zeta. do 2 f_equal. cbn. unfold var. do 2 f_equal.
    apply zsum_ext. intros. cbn. unfold mean. lra.
Qed.
(** any scalar type: the same computations, in index order *)
Theorem C23_statistics_any_scalar {T} `{Num T} (p : ptr) (n : Z) (f : Z -> T) (m : mem T) (init : T) (b : bool) :
  0 <= n -> holds m p n f ->
  let mean := div (zsum n f) (ofZ n) in
  tl_accumulate p n init m = Ok (zsum_from init n f, m) /\
  tl_mean p n m = Ok (mean, m) /\
  tl_std p n b m = Ok (nsqrt (div (zsum n (fun i => mul (sub (f i) mean) (sub (f i) mean)))
                                  (ofZ (n - (if b then 1 else 0)))), m).
Proof.
  intros Hn Hf mean. split; [now apply accumulate_ok|]. split; [|now apply std_ok].
  unfold tl_mean, tl_mean_init. erewrite bind_eq by (apply (accumulate_ok p n f); auto).
  rewrite zsum_from_zero. reflexivity.
Qed.

Module Examples.
Definition memZ : mem Z := [Some (map Some [3;7;2;7;1;0]); Some (map Some [10;20])].
Definition a6 := mk_tensor (Ptr 0 0) (shape1 6).
Definition a2 := mk_tensor (Ptr 1 0) (shape1 2).
Example runs : tl_argmax (Ptr 0 0) 6 memZ = Ok (1, memZ) /\ tl_argmin (Ptr 0 0) 6 memZ = Ok (5, memZ) /\
  tl_max (Ptr 0 0) 6 memZ = Ok (7, memZ) /\ tl_accumulate (Ptr 0 0) 6 100 memZ = Ok (120, memZ).
Proof. vm_compute. auto. Qed.
Example swo_Z : strict_weak (ltb (T := Z)).
Proof. split; [|split]; cbn [ltb Num_Z]; intros; rewrite ?Z.ltb_lt, ?Z.ltb_ge in *; lia. Qed.
Example hyp_C21 : holds memZ (Ptr 0 0) 6 (fun i => nth (Z.to_nat i) [3;7;2;7;1;0] 0).
Proof. exact (holds_list memZ 0 [3;7;2;7;1;0] 0 eq_refl). Qed.
(** columns of [[3 7 2][7 1 0]]: maxima in rows 1, 0, 0 *)
Example run_axis_x : tl_search_x (mk_tensor (Ptr 0 0) (shape2 2 3)) is_less memZ = Ok (map Some [1;0;0], memZ).
Proof. vm_compute. reflexivity. Qed.
Example run_concat : match tl_concat [a2; a6; a2] memZ with
  | Ok (r, m') => nth_error m' 2 = Some (Some (map Some [10;20;3;7;2;7;1;0;10;20])) | UB _ => False end.
Proof. vm_compute. reflexivity. Qed.
(** two separate operands given as a container: out of bounds *)
Example run_concat_list : tl_concat_list [a6; a2] memZ = UB OutOfBounds.
Proof. vm_compute. reflexivity. Qed.
(** rectangle rows 0-1, columns 0-1 of a 2 x 3 matrix *)
Example run_block : tl_block_loop (T := Z) 0 4 3 (fun o l => ret (l ++ [o])) [] memZ = Ok ([0;1;3;4], memZ).
Proof. vm_compute. reflexivity. Qed.
(** rectangle rows 0-1, all columns *)
Example run_block_full : tl_block_loop (T := Z) 0 5 3 (fun o l => ret (l ++ [o])) [] memZ = Ok ([], memZ).
Proof. vm_compute. reflexivity. Qed.
Definition memQ : mem Q := [Some (map Some [(1#4); (1#4); (1#2)]%Q)].
Example run_multinomial : tl_multinomial (Ptr 0 0) 3 30 100 memQ = Ok (1, memQ) /\
  tl_multinomial (Ptr 0 0) 3 100 100 memQ = Ok (2, memQ) /\ tl_multinomial (Ptr 0 0) 3 0 100 memQ = Ok (0, memQ).
Proof. vm_compute. auto. Qed.
End Examples.

Print Assumptions C21_argmax.
Print Assumptions C21_argmin.
Print Assumptions C21_empty.
Print Assumptions C22_axis_x_partial.
Print Assumptions C22_axis_y_refuted.
Print Assumptions C23_statistics.
Print Assumptions C23_statistics_any_scalar.
Print Assumptions C24_concat_variadic_partial.
Print Assumptions C24_concat_container_refuted.
Print Assumptions C25_block_loop_partial.
Print Assumptions C25_full_width_refuted.
Print Assumptions C25_one_column_refuted.
Print Assumptions C25_width_one_refuted.
Print Assumptions C26_multinomial.
