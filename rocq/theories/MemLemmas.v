(** * Reasoning about programs of Mem.v (proof infrastructure) *)
From Verif Require Import Mem MemSpec.

Section L.
Context {T : Type}.
Implicit Types (m : mem T).

(** ** lists *)
Lemma set_nth_length A n (x : A) l : length (set_nth n x l) = length l.
Proof. revert n; induction l as [|h t IH]; destruct n; simpl; auto. Qed.
Lemma nth_set_nth_same A n (x : A) l : (n < length l)%nat -> nth_error (set_nth n x l) n = Some x.
Proof. revert n; induction l as [|h t IH]; destruct n; simpl; intros; try lia; auto. apply IH; lia. Qed.
Lemma nth_set_nth_other A n k (x : A) l : n <> k -> nth_error (set_nth n x l) k = nth_error l k.
Proof. revert n k; induction l as [|h t IH]; destruct n, k; simpl; intros; try congruence; auto. Qed.
Lemma map_set_nth A B (f : A -> B) n x l : map f (set_nth n x l) = set_nth n (f x) (map f l).
Proof. revert n; induction l as [|h t IH]; destruct n; simpl; auto; f_equal; auto. Qed.
Lemma set_nth_id A n (x : A) l : nth_error l n = Some x -> set_nth n x l = l.
Proof. revert n; induction l as [|h t IH]; destruct n; simpl; intros; try congruence; f_equal; auto. Qed.
Lemma nth_repeat A (x : A) k n : nth_error (repeat x n) k = if (k <? n)%nat then Some x else None.
Proof.
  revert k; induction n; destruct k; simpl; auto. rewrite IHn.
  destruct (Nat.ltb_spec k n), (Nat.ltb_spec (S k) (S n)); try lia; auto.
Qed.

Lemma znth_bound A (l : list A) i c : znth l i = Some c -> 0 <= i < Z.of_nat (length l).
Proof.
  unfold znth. destruct (Z.leb_spec 0 i); [|discriminate]. intros H1.
  assert (Z.to_nat i < length l)%nat by (apply nth_error_Some; congruence). lia.
Qed.
Lemma znth_some A (l : list A) i : 0 <= i < Z.of_nat (length l) -> exists c, znth l i = Some c.
Proof.
  intros. unfold znth. destruct (Z.leb_spec 0 i); [|lia].
  destruct (nth_error l (Z.to_nat i)) eqn:E; eauto. apply nth_error_None in E. lia.
Qed.
Lemma znth_set_same A (l : list A) i x : 0 <= i < Z.of_nat (length l) ->
  znth (set_nth (Z.to_nat i) x l) i = Some x.
Proof. intros. unfold znth. destruct (Z.leb_spec 0 i); [|lia]. apply nth_set_nth_same. lia. Qed.
Lemma znth_set_other A (l : list A) i j x : 0 <= i -> i <> j ->
  znth (set_nth (Z.to_nat i) x l) j = znth l j.
Proof.
  intros. unfold znth. destruct (Z.leb_spec 0 j); auto. apply nth_set_nth_other. lia.
Qed.

(** ** cells *)
Lemma cell_live m b i c : cell m b i = Some c -> exists l, nth_error m b = Some (Some l) /\
  znth l i = Some c /\ 0 <= i < Z.of_nat (length l).
Proof.
  unfold cell. destruct (nth_error m b) as [[l|]|] eqn:E; try discriminate.
  intros. eauto using znth_bound.
Qed.

Definition mset m (p : ptr) (i : Z) (x : T) : mem T :=
  match store p i x m with Ok (_, m') => m' | UB _ => m end.

Lemma store_mset m p i x : elem m p i <> None -> store p i x m = Ok (tt, mset m p i x).
Proof.
  unfold mset, store, elem, cell. destruct p as [|b o]; [congruence|].
  destruct (nth_error m b) as [[l|]|]; try congruence.
  destruct (znth l (o + i)); [reflexivity|congruence].
Qed.

Lemma skel_mset m p i x : skel (mset m p i x) = skel m.
Proof.
  unfold mset, store. destruct p as [|b o]; auto.
  destruct (nth_error m b) as [[l|]|] eqn:E; auto.
  destruct (znth l (o + i)) eqn:E2; auto.
  unfold skel. rewrite map_set_nth. apply set_nth_id. rewrite nth_error_map, E. simpl.
  now rewrite set_nth_length.
Qed.

Lemma cell_mset_same m b o i x : cell m b (o + i) <> None ->
  cell (mset m (Ptr b o) i x) b (o + i) = Some (Some x).
Proof.
  unfold mset, store, cell. destruct (nth_error m b) as [[l|]|] eqn:E; try congruence.
  destruct (znth l (o + i)) eqn:E2; try congruence. intros _.
  rewrite nth_set_nth_same by (apply nth_error_Some; congruence).
  apply znth_set_same. eauto using znth_bound.
Qed.

Lemma cell_mset_other m p i x b j : ~ inside (padd p i) 1 b j -> cell (mset m p i x) b j = cell m b j.
Proof.
  unfold mset, store. destruct p as [|b' o]; auto. simpl. intros Hn.
  destruct (nth_error m b') as [[l|]|] eqn:E; auto.
  destruct (znth l (o + i)) eqn:E2; auto. apply znth_bound in E2.
  unfold cell. destruct (Nat.eq_dec b' b) as [<-|Hb].
  - rewrite nth_set_nth_same by (apply nth_error_Some; congruence). rewrite E.
    apply znth_set_other; [lia|]. intros <-. apply Hn. split; auto. lia.
  - rewrite nth_set_nth_other by auto. auto.
Qed.

Lemma elem_mset_same m p i x : elem m p i <> None -> elem (mset m p i x) p i = Some (Some x).
Proof. destruct p; simpl; [congruence|]. apply cell_mset_same. Qed.

Lemma elem_mset_other m p i x q j : (p <> q \/ i <> j) -> (forall b o b' o', p = Ptr b o -> q = Ptr b' o' ->
   b = b' -> o + i = o' + j -> False) -> elem (mset m p i x) q j = elem m q j.
Proof.
  intros _ H. destruct q as [|b' o']; auto. simpl. apply cell_mset_other.
  destruct p as [|b o]; simpl; auto. intros [-> ?]. eapply (H b o b o'); auto; lia.
Qed.

(** existence of a location depends on the skeleton only *)
Lemma skel_live m m' b : skel m = skel m' ->
  (exists l, nth_error m b = Some (Some l)) -> exists l', nth_error m' b = Some (Some l').
Proof.
  intros Hs [l Hl]. unfold skel in Hs.
  assert (H : nth_error (map (option_map (@length _)) m') b = Some (Some (length l))).
  { rewrite <- Hs, nth_error_map, Hl. reflexivity. }
  rewrite nth_error_map in H. destruct (nth_error m' b) as [[l'|]|]; simpl in H; try discriminate. eauto.
Qed.
Lemma skel_len m m' b l l' : skel m = skel m' -> nth_error m b = Some (Some l) ->
  nth_error m' b = Some (Some l') -> length l = length l'.
Proof.
  intros Hs H1 H2. unfold skel in Hs.
  assert (H : nth_error (map (option_map (@length _)) m') b = nth_error (map (option_map (@length _)) m) b) by now rewrite Hs.
  rewrite !nth_error_map, H1, H2 in H. simpl in H. congruence.
Qed.
Lemma cell_exists_skel m m' b i : skel m = skel m' -> cell m b i <> None -> cell m' b i <> None.
Proof.
  intros Hs H. destruct (cell m b i) as [c|] eqn:E; [|congruence].
  apply cell_live in E as (l & Hl & _ & Hi).
  destruct (skel_live m m' b Hs) as [l' Hl']; eauto.
  pose proof (skel_len _ _ _ _ _ Hs Hl Hl') as Hlen.
  unfold cell. rewrite Hl'. destruct (znth_some _ l' i) as [c' ->]; [lia|congruence].
Qed.
Lemma elem_exists_skel m m' p i : skel m = skel m' -> elem m p i <> None -> elem m' p i <> None.
Proof. destruct p; simpl; auto. apply cell_exists_skel. Qed.
Lemma room_skel m m' p n : skel m = skel m' -> room m p n -> room m' p n.
Proof. intros Hs H i Hi. eapply elem_exists_skel; eauto. Qed.
Lemma holds_room m p n v : holds m p n v -> room m p n.
Proof. intros H i Hi. rewrite H by auto. congruence. Qed.

(** ** weakest preconditions (total correctness) *)
Definition wp {A} (c : M T A) (m : mem T) (Q : A -> mem T -> Prop) : Prop :=
  match c m with Ok (a, m') => Q a m' | UB _ => False end.

Lemma wp_elim A (c : M T A) m (Q : A -> mem T -> Prop) : wp c m Q -> exists a m', c m = Ok (a, m') /\ Q a m'.
Proof. unfold wp. destruct (c m) as [[a m']|k]; [eauto|tauto]. Qed.
Lemma wp_intro A (c : M T A) m (Q : A -> mem T -> Prop) a m' : c m = Ok (a, m') -> Q a m' -> wp c m Q.
Proof. unfold wp. intros ->. auto. Qed.
Lemma wp_conseq A (c : M T A) m (Q Q' : A -> mem T -> Prop) :
  wp c m Q -> (forall a m', Q a m' -> Q' a m') -> wp c m Q'.
Proof. unfold wp. destruct (c m) as [[a m']|k]; auto. Qed.
Lemma wp_ret A (a : A) m (Q : A -> mem T -> Prop) : Q a m -> wp (ret a) m Q.
Proof. auto. Qed.
Lemma wp_bind A B (c : M T A) (f : A -> M T B) m (Q : B -> mem T -> Prop) :
  wp c m (fun a m' => wp (f a) m' Q) -> wp (bind c f) m Q.
Proof. unfold wp, bind. destruct (c m) as [[a m']|k]; auto. Qed.
Lemma wp_bind' A B (c : M T A) (f : A -> M T B) m (Q : B -> mem T -> Prop) (R : A -> mem T -> Prop) :
  wp c m R -> (forall a m', R a m' -> wp (f a) m' Q) -> wp (bind c f) m Q.
Proof. intros. apply wp_bind. eapply wp_conseq; eauto. Qed.

Lemma wp_load p i x m (Q : T -> mem T -> Prop) :
  elem m p i = Some (Some x) -> Q x m -> wp (load p i) m Q.
Proof.
  unfold wp, load, elem, cell. destruct p as [|b o]; [discriminate|].
  destruct (nth_error m b) as [[l|]|]; try discriminate. intros ->. auto.
Qed.
Lemma wp_store p i x m (Q : unit -> mem T -> Prop) :
  elem m p i <> None -> Q tt (mset m p i x) -> wp (store p i x) m Q.
Proof. intros H HQ. unfold wp. rewrite store_mset by auto. auto. Qed.
Lemma wp_alloc n m (Q : ptr -> mem T -> Prop) :
  Q (Ptr (length m) 0) (m ++ [Some (repeat None (Z.to_nat n))]) -> wp (alloc n) m Q.
Proof. auto. Qed.

Lemma wp_mfold A lo hi (body : Z -> A -> M T A) (I : Z -> A -> mem T -> Prop) a m (Q : A -> mem T -> Prop) :
  lo <= hi ->
  I lo a m ->
  (forall i a' m', lo <= i < hi -> I i a' m' -> wp (body i a') m' (I (i + 1))) ->
  (forall a' m', I hi a' m' -> Q a' m') ->
  wp (mfold lo hi body a) m Q.
Proof.
  intros Hle H0 Hstep HQ. unfold mfold.
  assert (G : forall n i a' m', lo <= i -> i + Z.of_nat n = hi -> I i a' m' ->
              wp (mfold_n n i body a') m' Q).
  { induction n; intros i a' m' Hi Hn HI; simpl.
    - apply HQ. replace hi with i by lia. auto.
    - apply wp_bind. eapply wp_conseq; [apply Hstep; [lia|eauto]|].
      intros a2 m2 H2. apply IHn; auto; lia. }
  apply (G _ lo); auto; lia.
Qed.
Lemma wp_mfor lo hi (body : Z -> M T unit) (I : Z -> mem T -> Prop) m (Q : unit -> mem T -> Prop) :
  lo <= hi ->
  I lo m ->
  (forall i m', lo <= i < hi -> I i m' -> wp (body i) m' (fun _ => I (i + 1))) ->
  (forall m', I hi m' -> Q tt m') ->
  wp (mfor lo hi body) m Q.
Proof.
  intros Hle H0 Hstep HQ. unfold mfor.
  apply (wp_mfold _ lo hi _ (fun i _ => I i)); auto. intros [] m'. auto.
Qed.
Lemma mfold_empty A lo hi (body : Z -> A -> M T A) a : hi <= lo -> mfold lo hi body a = ret a.
Proof. intros. unfold mfold. now replace (Z.to_nat (hi - lo)) with O by lia. Qed.
Lemma mfor_empty lo hi (body : Z -> M T unit) : hi <= lo -> mfor lo hi body = ret tt.
Proof. intros. unfold mfor. now rewrite mfold_empty. Qed.
Lemma mfold_ext A lo hi (body body' : Z -> A -> M T A) : (forall i a m, lo <= i < hi -> body i a m = body' i a m) ->
  forall a m, mfold lo hi body a m = mfold lo hi body' a m.
Proof.
  intros H. unfold mfold. destruct (Z.le_gt_cases hi lo) as [Hle|Hgt].
  { intros. now replace (Z.to_nat (hi - lo)) with O by lia. }
  remember (Z.to_nat (hi - lo)) as n. assert (Hn : lo + Z.of_nat n <= hi) by lia. clear Heqn Hgt.
  assert (G : forall n i, lo <= i -> i + Z.of_nat n <= hi -> forall a m, mfold_n n i body a m = mfold_n n i body' a m).
  { clear n Hn. induction n; intros i Hi Hn a m; cbn [mfold_n]; [reflexivity|]. unfold bind. rewrite H by lia.
    destruct (body' i a m) as [[a' m']|]; auto. apply IHn; lia. }
  apply G; lia.
Qed.
Lemma mfor_ext lo hi (body body' : Z -> M T unit) : (forall i m, lo <= i < hi -> body i m = body' i m) ->
  forall m, mfor lo hi body m = mfor lo hi body' m.
Proof. intros H m. unfold mfor. apply mfold_ext. intros. now apply H. Qed.
Lemma wp_mlist A B (l : list A) (body : A -> B -> M T B) (I : list A -> B -> mem T -> Prop) b m (Q : B -> mem T -> Prop) :
  I [] b m ->
  (forall done x todo b' m', l = done ++ x :: todo -> I done b' m' ->
     wp (body x b') m' (I (done ++ [x]))) ->
  (forall b' m', I l b' m' -> Q b' m') ->
  wp (mlist l body b) m Q.
Proof.
  intros H0 Hs HQ.
  assert (G : forall todo done b' m', l = done ++ todo -> I done b' m' -> wp (mlist todo body b') m' Q).
  { induction todo as [|x todo IH]; intros done b' m' Hl HI; simpl.
    - apply HQ. rewrite app_nil_r in Hl. now subst.
    - apply wp_bind. eapply wp_conseq; [eapply Hs; eauto|]. intros b2 m2 H2.
      apply (IH (done ++ [x])); auto. now rewrite <- app_assoc. }
  apply (G l []); auto.
Qed.

(** ** frames *)
Lemma only_refl W m : only W m m.
Proof. split; auto. Qed.
Lemma only_weaken (W W' : nat -> Z -> Prop) m m' :
  (forall b i, W b i -> W' b i) -> only W m m' -> only W' m m'.
Proof. intros HW [H1 H2]. split; auto. Qed.
Lemma only_trans (W : nat -> Z -> Prop) m1 m2 m3 : only W m1 m2 -> only W m2 m3 -> only W m1 m3.
Proof. intros [A B] [C D]. split; [congruence|]. intros. now rewrite D, B. Qed.
Lemma only_trans' (W W' : nat -> Z -> Prop) m1 m2 m3 : only W m1 m2 -> only W' m2 m3 ->
  only (fun b i => W b i \/ W' b i) m1 m3.
Proof.
  intros H1 H2. eapply only_trans; [eapply only_weaken; [|exact H1]|eapply only_weaken; [|exact H2]]; simpl; auto.
Qed.
Lemma only_mset m p i x : only (inside (padd p i) 1) m (mset m p i x).
Proof. split; [apply skel_mset|]. intros. now apply cell_mset_other. Qed.
Lemma only_mset_in m p n i x : 0 <= i < n -> only (inside p n) m (mset m p i x).
Proof.
  intros. eapply only_weaken; [|apply only_mset]. intros b j. destruct p; simpl; auto. lia.
Qed.
Lemma only_elem W m m' p i : only W m m' ->
  (forall b j, inside (padd p i) 1 b j -> ~ W b j) -> elem m' p i = elem m p i.
Proof.
  intros [_ H] Hd. destruct p as [|b o]; auto. simpl. apply H. apply Hd. simpl. split; auto. lia.
Qed.
Lemma only_holds W m m' p n v : only W m m' -> (forall b i, inside p n b i -> ~ W b i) ->
  holds m p n v -> holds m' p n v.
Proof.
  intros Ho Hd Hh i Hi. rewrite <- (Hh i Hi). eapply only_elem; eauto. intros b j Hj. apply Hd.
  destruct p; simpl in *; auto. lia.
Qed.
Lemma only_room W m m' p n : only W m m' -> room m p n -> room m' p n.
Proof. intros [Hs _]. apply room_skel. auto. Qed.
Lemma holds_ext m p n v v' : (forall i, 0 <= i < n -> v i = v' i) -> holds m p n v -> holds m p n v'.
Proof. intros He H i Hi. rewrite H, He; auto. Qed.
Lemma holds_unique m p n v v' i : holds m p n v -> holds m p n v' -> 0 <= i < n -> v i = v' i.
Proof. intros A B Hi. specialize (A i Hi). specialize (B i Hi). congruence. Qed.
Lemma disjoint_sym p n q k : disjoint p n q k -> disjoint q k p n.
Proof. intros H b i A B. eapply H; eauto. Qed.
Lemma disjoint_blocks b o n b' o' k : b <> b' -> disjoint (Ptr b o) n (Ptr b' o') k.
Proof. intros H b1 i [-> _] [-> _]. auto. Qed.

(** cells of existing blocks are kept by allocation *)
Lemma cell_app m x b i : (b < length m)%nat -> cell (m ++ [x]) b i = cell m b i.
Proof. intros. unfold cell. now rewrite nth_error_app1. Qed.
Lemma cell_lt m b i c : cell m b i = Some c -> (b < length m)%nat.
Proof. intros H. apply cell_live in H as (l & H & _). apply nth_error_Some. congruence. Qed.
Lemma cell_alloc m n i : 0 <= i < n -> cell (m ++ [Some (repeat None (Z.to_nat n))]) (length m) i = Some None.
Proof.
  intros. unfold cell. rewrite nth_error_app2, Nat.sub_diag by lia. simpl. unfold znth.
  destruct (Z.leb_spec 0 i); [|lia]. rewrite nth_repeat. destruct (Nat.ltb_spec (Z.to_nat i) (Z.to_nat n)); auto; lia.
Qed.
Lemma elem_app m x p i c : elem m p i = Some c -> elem (m ++ [x]) p i = Some c.
Proof. destruct p as [|b o]; simpl; auto. intros H. rewrite cell_app; eauto using cell_lt. Qed.
Lemma holds_app m x p n v : holds m p n v -> holds (m ++ [x]) p n v.
Proof. intros H i Hi. apply elem_app. auto. Qed.
Lemma room_app m x p n : room m p n -> room (m ++ [x]) p n.
Proof.
  intros H i Hi. specialize (H i Hi). destruct (elem m p i) eqn:E; [|congruence].
  erewrite elem_app by eauto. congruence.
Qed.
Lemma room_alloc m n : room (m ++ [Some (repeat None (Z.to_nat n))]) (Ptr (length m) 0) n.
Proof. intros i Hi. simpl. rewrite cell_alloc by lia. congruence. Qed.

(** ** the element-wise loop *)
Lemma wp_map_loop dst n (f : Z -> T) (body : Z -> M T unit) m :
  room m dst n ->
  (forall i m1, 0 <= i < n -> only (inside dst i) m m1 ->
     body i m1 = Ok (tt, mset m1 dst i (f i))) ->
  wp (mfor 0 n body) m (fun _ m' => holds m' dst n f /\ only (inside dst n) m m').
Proof.
  intros Hroom Hbody. destruct (Z_le_gt_dec 0 n) as [Hn|Hn].
  2:{ rewrite mfor_empty by lia. apply wp_ret. split; [intros i Hi; lia|apply only_refl]. }
  apply (wp_mfor 0 n _ (fun i m' => holds m' dst i f /\ only (inside dst i) m m')); auto.
  - split; [intros i Hi; lia|apply only_refl].
  - intros i m1 Hi [Hh Ho]. eapply wp_intro; [apply Hbody; auto|].
    split.
    + intros j Hj. destruct (Z.eq_dec j i) as [->|Hji].
      * apply elem_mset_same. eapply elem_exists_skel; [|apply Hroom; lia]. symmetry. apply Ho.
      * rewrite elem_mset_other; [apply Hh; lia|right; lia|]. intros b o b' o' -> [= -> ->] _ ?. lia.
    + eapply only_trans; [eapply only_weaken; [|apply Ho]|apply only_mset_in; lia].
      intros b j. destruct dst; simpl; auto. lia.
Qed.

(** an operand is still what it was at step i *)
Lemma operand_elem m m1 dst n src i : operand_ok dst n src -> 0 <= i < n ->
  only (inside dst i) m m1 -> elem m1 src i = elem m src i.
Proof.
  intros Hok Hi Ho. eapply only_elem; eauto. intros b j Hj Hd.
  destruct Hok as [->|Hok].
  - destruct dst; simpl in *; auto. lia.
  - eapply (Hok b j).
    + destruct dst; simpl in *; auto. lia.
    + destruct src; simpl in *; auto. lia.
Qed.

Lemma load_ok m p i x : elem m p i = Some (Some x) -> load p i m = Ok (x, m).
Proof.
  unfold load, elem, cell. destruct p as [|b o]; [discriminate|].
  destruct (nth_error m b) as [[l|]|]; try discriminate. now intros ->.
Qed.

(** a concrete array (used for the satisfiability examples) *)
Lemma holds_list m b (l : list T) d : nth_error m b = Some (Some (map Some l)) ->
  holds m (Ptr b 0) (Z.of_nat (length l)) (fun i => nth (Z.to_nat i) l d).
Proof.
  intros H i Hi. unfold elem, cell. rewrite H. unfold znth. destruct (Z.leb_spec 0 (0 + i)); [|lia].
  replace (0 + i) with i by lia. rewrite nth_error_map, (nth_error_nth' l d) by lia. reflexivity.
Qed.
End L.

Ltac wstep :=
  match goal with
  | |- wp (bind _ _) _ _ => apply wp_bind
  | |- wp (ret _) _ _ => apply wp_ret
  | |- wp (alloc _) _ _ => apply wp_alloc
  end.
