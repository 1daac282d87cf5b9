(** * Properties of Container (C27 - C32) *)
From Verif Require Import Mem MemSpec MemLemmas Container.

Section Spec.
Context {T : Type}.
Implicit Types (m : mem T) (l : list T) (c : container).

Definition zlen {A} (l : list A) : Z := Z.of_nat (length l).

(** [c] is a container whose contents are the list [l]: its storage has room for exactly
    [capacity()] objects, of which the first [size()] are constructed, with the values [l], and
    the others are raw. *)
Definition contains m c l : Prop :=
  c_size c = zlen l /\ zlen l <= c_cap c /\
  match c_data c with
  | Null => c_cap c = 0
  | Ptr b o => o = 0 /\ nth_error m b = Some (Some (map Some l ++ repeat None (Z.to_nat (c_cap c - zlen l))))
  end.

(** What a step did with the storage of [c]: blocks of other objects are untouched; the new
    storage is the old one or a new block; every other block the step used is released. *)
Definition storage c m c' m' : Prop :=
  keeps (owns_block (c_data c)) m m' /\
  (c_data c' = c_data c \/ exists b, (length m <= b)%nat /\ c_data c' = Ptr b 0) /\
  (forall b, (owns_block (c_data c) b \/ (length m <= b < length m')%nat) ->
     ~ owns_block (c_data c') b -> freed m' b).

(** operations of a history, on the container and on a mathematical list *)
Inductive cop :=
| EmplaceBack (x : T) | PopBack | Resize (n : Z) (x : T) | Reserve (n : Z) | Write (i : Z) (x : T).
Definition list_step (o : cop) l : option (list T) :=
  match o with
  | EmplaceBack x => Some (l ++ [x])
  | PopBack => match l with [] => None | _ => Some (removelast l) end
  | Resize n x => if 0 <=? n then Some (firstn (Z.to_nat n) l ++ repeat x (Z.to_nat n - length l)) else None
  | Reserve n => Some l
  | Write i x => if (0 <=? i) && (i <? zlen l) then Some (firstn (Z.to_nat i) l ++ x :: skipn (S (Z.to_nat i)) l) else None
  end.
(** a history is admissible if [pop_back] is called on non-empty containers only, written
    indices are in range and no intermediate size reaches 2^64 *)
Fixpoint list_run (os : list cop) l : option (list T) :=
  if zlen l <? 2 ^ 64 then
    match os with [] => Some l | o :: os' => match list_step o l with Some l' => list_run os' l' | None => None end end
  else None.

Variables (moved : T -> T).
Definition cont_step (o : cop) c : M T container :=
  match o with
  | EmplaceBack x => cont_emplace_back moved c (ret x)
  | PopBack => cont_pop_back c
  | Resize n x => cont_resize moved c n (fun _ => x)
  | Reserve n => cont_reserve moved c n
  | Write i x => cont_set c i x ;;; ret c
  end.
Fixpoint cont_run (os : list cop) c : M T container :=
  match os with [] => ret c | o :: os' => let* c' := cont_step o c in cont_run os' c' end.
End Spec.
Arguments cop T : clear implicits.

(** the three constructors of C27 *)
Inductive cctor (T : Type) := NewDefault | NewSized (n : Z) | NewList (l : list T).
Arguments NewDefault {T}. Arguments NewSized {T}. Arguments NewList {T}.
Definition list_new {T} (dflt : T) (k : cctor T) : list T :=
  match k with NewDefault => [] | NewSized n => repeat dflt (Z.to_nat n) | NewList l => l end.
Definition cont_new {T} (dflt : T) (k : cctor T) : M T container :=
  match k with NewDefault => ret cont_default | NewSized n => cont_sized dflt n | NewList l => cont_of_list l end.
Definition ctor_ok {T} (k : cctor T) : Prop := match k with NewSized n => 0 <= n | _ => True end.

Section Proofs.
Context {T : Type} (moved : T -> T) (dflt : T).
Implicit Types (m : mem T) (l : list T) (c : container).

(** ** list facts *)
Lemma zlen_app A (l l' : list A) : zlen (l ++ l') = zlen l + zlen l'.
Proof. unfold zlen. rewrite app_length. lia. Qed.
Lemma zlen_nn A (l : list A) : 0 <= zlen l. Proof. unfold zlen. lia. Qed.
Lemma zlen_map A B (f : A -> B) (l : list A) : zlen (map f l) = zlen l. Proof. unfold zlen. now rewrite map_length. Qed.
Lemma set_nth_app A (a : list A) x y t n : n = length a -> set_nth n x (a ++ y :: t) = a ++ x :: t.
Proof. intros ->. induction a; cbn; auto. now rewrite IHa. Qed.
Lemma set_nth_set_nth A n (x y : A) (l : list A) : set_nth n x (set_nth n y l) = set_nth n x l.
Proof. revert n; induction l; destruct n; cbn; auto. now rewrite IHl. Qed.
Lemma set_nth_comm A n k (x y : A) (l : list A) : n <> k -> set_nth n x (set_nth k y l) = set_nth k y (set_nth n x l).
Proof. revert n k; induction l; destruct n, k; cbn; intros; auto; try lia. rewrite IHl; auto. Qed.
Lemma znth_app A (a : list A) y t i : i = zlen a -> znth (a ++ y :: t) i = Some y.
Proof.
  intros ->. unfold znth, zlen. destruct (Z.leb_spec 0 (Z.of_nat (length a))); [|lia].
  rewrite Nat2Z.id, nth_error_app2, Nat.sub_diag by lia. reflexivity.
Qed.
Definition upd m b (L : list (option T)) : mem T := set_nth b (Some L) m.
Lemma upd_upd m b L L' : upd (upd m b L) b L' = upd m b L'.
Proof. apply set_nth_set_nth. Qed.
Lemma upd_id m b L : nth_error m b = Some (Some L) -> upd m b L = m.
Proof. apply set_nth_id. Qed.
Lemma nth_lt A (q : list A) b x : nth_error q b = Some x -> (b < length q)%nat.
Proof. intros H. apply nth_error_Some. congruence. Qed.
Lemma upd_same m b L L' : nth_error m b = Some (Some L) -> nth_error (upd m b L') b = Some (Some L').
Proof. intros H. apply nth_set_nth_same. eapply nth_lt; eauto. Qed.
Lemma upd_other m b b' L : b <> b' -> nth_error (upd m b L) b' = nth_error m b'.
Proof. intros. now apply nth_set_nth_other. Qed.
Lemma upd_length m b L : length (upd m b L) = length m.
Proof. apply set_nth_length. Qed.

Lemma bind_ok A B (k : M T A) (f : A -> M T B) m a m' : k m = Ok (a, m') -> bind k f m = f a m'.
Proof. unfold bind. now intros ->. Qed.
(** ** single steps *)
Lemma construct_ok m b i x A R : nth_error m b = Some (Some (A ++ None :: R)) -> i = zlen A ->
  construct (Ptr b 0) i x m = Ok (tt, upd m b (A ++ Some x :: R)).
Proof.
  intros H E. unfold construct. rewrite H, (znth_app _ A None R) by lia.
  rewrite (set_nth_app _ A); [reflexivity|]. unfold zlen in E. lia.
Qed.
Lemma destruct_ok m b i x A R : nth_error m b = Some (Some (A ++ Some x :: R)) -> i = zlen A ->
  destruct_at (Ptr b 0) i m = Ok (tt, upd m b (A ++ None :: R)).
Proof.
  intros H E. unfold destruct_at. rewrite H, (znth_app _ A (Some x) R) by lia.
  rewrite (set_nth_app _ A); [reflexivity|]. unfold zlen in E. lia.
Qed.
Lemma cload_ok m b i x A R : nth_error m b = Some (Some (A ++ Some x :: R)) -> i = zlen A ->
  load (Ptr b 0) i m = Ok (x, m).
Proof. intros H E. unfold load. rewrite H, (znth_app _ A (Some x) R) by lia. reflexivity. Qed.
Lemma cstore_ok m b i x y A R : nth_error m b = Some (Some (A ++ Some x :: R)) -> i = zlen A ->
  store (Ptr b 0) i y m = Ok (tt, upd m b (A ++ Some y :: R)).
Proof.
  intros H E. unfold store. rewrite H, (znth_app _ A (Some x) R) by lia.
  rewrite (set_nth_app _ A); [reflexivity|]. unfold zlen in E. lia.
Qed.
Lemma move_ok m b i x A R : nth_error m b = Some (Some (A ++ Some x :: R)) -> i = zlen A ->
  move_from moved (Ptr b 0) i m = Ok (x, upd m b (A ++ Some (moved x) :: R)).
Proof.
  intros H E. unfold move_from, bind. rewrite (cload_ok m b i x A R), (cstore_ok m b i x _ A R) by auto. reflexivity.
Qed.

(** ** loops *)
Lemma mfor_step lo hi (body : Z -> M T unit) m m1 : lo < hi -> body lo m = Ok (tt, m1) ->
  mfor lo hi body m = mfor (lo + 1) hi body m1.
Proof.
  intros H E. unfold mfor, mfold. replace (Z.to_nat (hi - lo)) with (S (Z.to_nat (hi - (lo + 1)))) by lia.
  cbn [mfold_n]. unfold bind. now rewrite E.
Qed.
Lemma mfor_done lo hi (body : Z -> M T unit) m : hi <= lo -> mfor lo hi body m = Ok (tt, m).
Proof. intros. now rewrite mfor_empty. Qed.

Lemma construct_loop b : forall xs A R m (f : Z -> T) lo hi,
  nth_error m b = Some (Some (A ++ repeat None (length xs) ++ R)) -> lo = zlen A -> hi = lo + zlen xs ->
  (forall k x, nth_error xs k = Some x -> f (lo + Z.of_nat k) = x) ->
  mfor lo hi (fun i => construct (Ptr b 0) i (f i)) m = Ok (tt, upd m b (A ++ map Some xs ++ R)).
Proof.
  induction xs as [|x xs IH]; intros A R m f lo hi Hm El Eh Hf.
  - rewrite mfor_done by (cbn in Eh; lia). cbn in *. now rewrite upd_id.
  - cbn [length repeat app] in Hm. change (x :: xs) with ([x] ++ xs) in Eh. rewrite zlen_app in Eh.
    change (zlen [x]) with 1 in Eh. pose proof (zlen_nn _ xs).
    erewrite mfor_step; [|lia|apply construct_ok; eauto].
    rewrite (IH (A ++ [Some (f lo)]) R _ f (lo + 1) hi).
    + rewrite upd_upd. rewrite <- app_assoc. cbn. do 4 f_equal. f_equal. specialize (Hf 0%nat x eq_refl). f_equal. rewrite <- Hf. f_equal. lia.
    + erewrite upd_same by eauto. now rewrite <- app_assoc.
    + rewrite zlen_app. change (zlen [Some (f lo)]) with 1. lia.
    + lia.
    + intros k y Hk. specialize (Hf (S k) y Hk). rewrite <- Hf. f_equal. lia.
Qed.
Lemma copy_loop b bs : b <> bs -> forall xs P A S' R m lo hi,
  nth_error m bs = Some (Some (P ++ map Some xs ++ S')) ->
  nth_error m b = Some (Some (A ++ repeat None (length xs) ++ R)) ->
  lo = zlen P -> lo = zlen A -> hi = lo + zlen xs ->
  mfor lo hi (fun i => let* x := load (Ptr bs 0) i in construct (Ptr b 0) i x) m = Ok (tt, upd m b (A ++ map Some xs ++ R)).
Proof.
  intros Hb. induction xs as [|x xs IH]; intros P A S' R m lo hi Hs Hm Ep El Eh.
  - rewrite mfor_done by (cbn in Eh; lia). cbn in *. now rewrite upd_id.
  - cbn [length repeat app map] in Hm, Hs. change (x :: xs) with ([x] ++ xs) in Eh. rewrite zlen_app in Eh.
    change (zlen [x]) with 1 in Eh. pose proof (zlen_nn _ xs).
    erewrite mfor_step; [|lia|]. 2:{ unfold bind. erewrite cload_ok by eauto. apply construct_ok; eauto. }
    rewrite (IH (P ++ [Some x]) (A ++ [Some x]) S' R _ (lo + 1) hi).
    + rewrite upd_upd. now rewrite <- app_assoc.
    + rewrite upd_other by auto. now rewrite <- app_assoc.
    + erewrite upd_same by eauto. now rewrite <- app_assoc.
    + rewrite zlen_app. change (zlen [Some x]) with 1. lia.
    + rewrite zlen_app. change (zlen [Some x]) with 1. lia.
    + lia.
Qed.
Lemma move_loop b bs : b <> bs -> forall xs P A S' R m lo hi,
  nth_error m bs = Some (Some (P ++ map Some xs ++ S')) ->
  nth_error m b = Some (Some (A ++ repeat None (length xs) ++ R)) ->
  lo = zlen P -> lo = zlen A -> hi = lo + zlen xs ->
  mfor lo hi (fun i => let* x := move_from moved (Ptr bs 0) i in construct (Ptr b 0) i x) m =
    Ok (tt, upd (upd m bs (P ++ map Some (map moved xs) ++ S')) b (A ++ map Some xs ++ R)).
Proof.
  intros Hb. induction xs as [|x xs IH]; intros P A S' R m lo hi Hs Hm Ep El Eh.
  - rewrite mfor_done by (cbn in Eh; lia). cbn in *. now rewrite !upd_id by (rewrite ?upd_id; auto).
  - cbn [length repeat app map] in Hm, Hs. change (x :: xs) with ([x] ++ xs) in Eh. rewrite zlen_app in Eh.
    change (zlen [x]) with 1 in Eh. pose proof (zlen_nn _ xs).
    erewrite mfor_step; [|lia|]. 2:{ unfold bind. erewrite move_ok by eauto. apply construct_ok; [rewrite upd_other by auto; eauto|auto]. }
    rewrite (IH (P ++ [Some (moved x)]) (A ++ [Some x]) S' R _ (lo + 1) hi).
    + unfold upd. rewrite (set_nth_comm _ bs b) by auto. rewrite !set_nth_set_nth.
      rewrite <- !app_assoc. reflexivity.
    + rewrite upd_other by auto. erewrite upd_same by eauto. now rewrite <- app_assoc.
    + erewrite upd_same by (rewrite upd_other by auto; eauto). now rewrite <- app_assoc.
    + rewrite zlen_app. change (zlen [Some (moved x)]) with 1. lia.
    + rewrite zlen_app. change (zlen [Some x]) with 1. lia.
    + lia.
Qed.
Lemma destroy_loop b : forall xs A R m lo hi,
  nth_error m b = Some (Some (A ++ map Some xs ++ R)) -> lo = zlen A -> hi = lo + zlen xs ->
  mfor lo hi (fun i => destruct_at (Ptr b 0) i) m = Ok (tt, upd m b (A ++ repeat None (length xs) ++ R)).
Proof.
  induction xs as [|x xs IH]; intros A R m lo hi Hm El Eh.
  - rewrite mfor_done by (cbn in Eh; lia). cbn in *. now rewrite upd_id.
  - cbn [length repeat app map] in *. change (x :: xs) with ([x] ++ xs) in Eh. rewrite zlen_app in Eh.
    change (zlen [x]) with 1 in Eh. pose proof (zlen_nn _ xs).
    erewrite mfor_step; [|lia|eapply destruct_ok; eauto].
    rewrite (IH (A ++ [None]) R _ (lo + 1) hi).
    + rewrite upd_upd. now rewrite <- app_assoc.
    + erewrite upd_same by eauto. now rewrite <- app_assoc.
    + rewrite zlen_app. change (zlen [None]) with 1. lia.
    + lia.
Qed.
Lemma dealloc_ok m b k : nth_error m b = Some (Some (repeat None k)) -> deallocate (Ptr b 0) m = Ok (tt, set_nth b None m).
Proof.
  intros H. unfold deallocate. rewrite H. cbn.
  replace (forallb _ (repeat None k)) with true; auto. symmetry. apply forallb_forall. intros c Hc.
  apply repeat_spec in Hc. now subst.
Qed.
Lemma repeat_app' A (x : A) n k : repeat x n ++ repeat x k = repeat x (n + k).
Proof. symmetry. apply repeat_app. Qed.

(** releasing a container *)
Lemma release_ok m c l : contains m c l ->
  exists m', (destroy (c_data c) 0 (c_size c) ;;; deallocate (c_data c)) m = Ok (tt, m') /\
    keeps (owns_block (c_data c)) m m' /\ (forall b, owns_block (c_data c) b -> freed m' b) /\ length m' = length m.
Proof.
  intros (Es & Ec & H). destruct c as [[|b o] s cap]; cbn [c_data c_size c_cap] in *.
  - exists m. split; [reflexivity|]. split; [split; [lia|auto]|]. split; [cbn; tauto|auto].
  - destruct H as [-> H]. unfold bind, destroy.
    rewrite (destroy_loop b l [] (repeat None (Z.to_nat (cap - zlen l))) m 0 s) by auto. cbn [app].
    rewrite repeat_app'.
    erewrite dealloc_ok by (eapply upd_same; eauto). eexists. split; [reflexivity|].
    unfold upd. rewrite set_nth_set_nth. split; [|split].
    + split; [rewrite set_nth_length; lia|]. intros b' Hb' Hn. apply nth_set_nth_other. cbn in Hn. auto.
    + intros b' ->. apply nth_set_nth_same. eapply nth_lt; eauto.
    + apply set_nth_length.
Qed.

Lemma storage_refl c m : storage c m c m.
Proof.
  split; [split; [lia|auto]|]. split; auto. intros b [H|H] H'; [tauto|lia].
Qed.
Lemma storage_trans c m c1 m1 c2 m2 : (forall b, owns_block (c_data c) b -> (b < length m)%nat) ->
  storage c m c1 m1 -> storage c1 m1 c2 m2 -> storage c m c2 m2.
Proof.
  intros Hb ((L1 & K1) & D1 & F1) ((L2 & K2) & D2 & F2).
  assert (N1 : forall b, (b < length m)%nat -> ~ owns_block (c_data c) b -> ~ owns_block (c_data c1) b).
  { intros b H H'. destruct D1 as [->|(b' & Hb' & ->)]; auto. cbn. lia. }
  split; [split; [lia|]|split].
  - intros b H Hn. rewrite K2; auto. lia.
  - destruct D2 as [->|(b' & Hb' & ->)]; auto. right. exists b'. split; auto. lia.
  - intros b H Hn. destruct (Nat.lt_ge_cases b (length m1)) as [Hlt|Hge].
    + destruct (c_data c1) as [|b1 o1] eqn:E1.
      * unfold freed in *. rewrite K2; [apply F1; cbn; auto; destruct H; auto; lia|lia|cbn; auto].
      * destruct (Nat.eq_dec b b1) as [->|Hne].
        -- apply F2; auto. cbn. auto.
        -- unfold freed in *. rewrite K2; [apply F1; cbn; auto; destruct H; auto; lia|lia|cbn; auto].
    + apply F2; auto. right. destruct H as [H|H]; [apply Hb in H; lia|lia].
Qed.
Lemma contains_lt m c l : contains m c l -> forall b, owns_block (c_data c) b -> (b < length m)%nat.
Proof.
  intros (_ & _ & H) b. destruct (c_data c); cbn; [tauto|]. intros ->. destruct H as [_ H]. eapply nth_lt; eauto.
Qed.
Lemma contains_keeps m c l m' X : contains m c l -> keeps X m m' -> (forall b, owns_block (c_data c) b -> ~ X b) -> contains m' c l.
Proof.
  intros H [_ K] HX. pose proof (contains_lt _ _ _ H) as Hlt. destruct H as (A & B & C). split; [auto|split; [auto|]].
  destruct (c_data c) as [|b o]; auto. destruct C as [-> C]. split; auto. rewrite K; auto.
  - apply Hlt. reflexivity.
  - apply HX. reflexivity.
Qed.

Lemma alloc_nth m x : nth_error (m ++ [x]) (length m) = Some x.
Proof. rewrite nth_error_app2, Nat.sub_diag by lia. reflexivity. Qed.
Lemma app_nth m x b y : nth_error m b = Some y -> nth_error (m ++ [x]) b = Some y.
Proof. intros. rewrite nth_error_app1; auto. eapply nth_lt; eauto. Qed.

Lemma reserve_spec m c l n : contains m c l ->
  exists c' m', cont_reserve moved c n m = Ok (c', m') /\ contains m' c' l /\ storage c m c' m' /\
    c_cap c' = Z.max (c_cap c) n /\ (n <= c_cap c -> c' = c /\ m' = m) /\
    (c_cap c < n -> length m' = S (length m) /\ c_data c' = Ptr (length m) 0).
Proof.
  intros HC. pose proof (contains_lt _ _ _ HC) as Hlt. pose proof HC as (Es & Ec & H).
  unfold cont_reserve. destruct (Z.ltb_spec (c_cap c) n) as [Hcn|Hcn].
  2:{ exists c, m. split; [reflexivity|]. split; auto. split; [apply storage_refl|]. repeat split; auto; lia. }
  pose proof (zlen_nn _ l) as Hl. erewrite bind_ok by reflexivity.
  set (m0 := m ++ [Some (repeat None (Z.to_nat n))]). set (b' := length m).
  assert (Hn : repeat (A := option T) None (Z.to_nat n) = [] ++ repeat None (length l) ++ repeat None (Z.to_nat (n - zlen l))).
  { cbn [app]. rewrite repeat_app'. f_equal. unfold zlen in *. lia. }
  assert (H0 : nth_error m0 b' = Some (Some ([] ++ repeat None (length l) ++ repeat None (Z.to_nat (n - zlen l))))).
  { unfold m0, b'. rewrite alloc_nth. now rewrite Hn. }
  destruct c as [[|b o] s cap]; cbn [c_data c_size c_cap] in *.
  - assert (l = []) as -> by (destruct l; auto; unfold zlen in *; cbn in *; lia). cbn in Es. subst s.
    erewrite bind_ok by (apply mfor_done; lia). cbn [destroy deallocate]. eexists _, _. split; [reflexivity|].
    split; [|split; [|split; [cbn; lia|split; [lia|]]]].
    + split; [reflexivity|]. split; [cbn; lia|]. cbn [c_data c_cap]. split; auto.
    + split; [split; [unfold m0; rewrite app_length; lia|]|split; [right; exists b'; auto|]].
      * intros b Hb _. unfold m0. now rewrite nth_error_app1.
      * cbn [c_data owns_block]. intros b [[]|Hb] Hne. unfold m0, b' in *. rewrite app_length in Hb. cbn in Hb. lia.
    + intros _. unfold m0. rewrite app_length. cbn. split; [lia|auto].
  - destruct H as [-> H]. assert (Hbb : b' <> b) by (specialize (Hlt b eq_refl); unfold b'; lia).
    erewrite bind_ok.
    2:{ apply (move_loop b' b Hbb l [] [] (repeat None (Z.to_nat (cap - zlen l))) (repeat None (Z.to_nat (n - zlen l))) m0 0 s).
        - cbn [app]. apply app_nth. auto.
        - auto.
        - reflexivity.
        - reflexivity.
        - auto. }
    cbn [app]. set (m1 := upd (upd m0 b _) b' _).
    assert (N1 : nth_error m1 b = Some (Some ([] ++ map Some (map moved l) ++ repeat None (Z.to_nat (cap - zlen l))))).
    { unfold m1. rewrite upd_other by auto. eapply upd_same. unfold m0. apply app_nth; eauto. }
    erewrite bind_ok by (apply (destroy_loop b (map moved l) [] _ m1 0 s N1); [reflexivity|rewrite zlen_map; auto]).
    cbn [app]. rewrite repeat_app'. erewrite bind_ok by (eapply dealloc_ok; eapply upd_same; eauto).
    unfold upd at 1. rewrite set_nth_set_nth. set (m2 := set_nth b None m1).
    assert (N2 : nth_error m2 b' = Some (Some (map Some l ++ repeat None (Z.to_nat (n - zlen l))))).
    { unfold m2. rewrite nth_set_nth_other by auto. unfold m1. eapply upd_same. rewrite upd_other by auto. eauto. }
    assert (L2 : length m2 = S (length m)).
    { unfold m2. rewrite set_nth_length. unfold m1. rewrite !upd_length. unfold m0. rewrite app_length. cbn. lia. }
    eexists _, m2. split; [reflexivity|]. split; [|split; [|split; [cbn; lia|split; [lia|auto]]]].
    + split; [auto|]. split; [cbn; lia|]. cbn [c_data c_cap]. auto.
    + split; [split; [lia|]|split; [right; exists b'; cbn; auto|]].
      * cbn [c_data owns_block]. intros x Hx Hne. unfold m2. rewrite nth_set_nth_other by auto.
        unfold m1. rewrite !upd_other by (unfold b' in *; auto; lia). unfold m0. now rewrite nth_error_app1.
      * cbn [c_data owns_block]. intros x Hx Hne. destruct Hx as [->|Hx]; [|unfold b' in *; lia].
        unfold freed, m2. apply nth_set_nth_same. eapply nth_lt; eauto.
Qed.

Lemma nth_upd_keeps m b L : nth_error m b <> None -> keeps (fun x => x = b) m (upd m b L).
Proof.
  intros H. split; [rewrite upd_length; lia|]. intros x Hx Hn. apply upd_other. auto.
Qed.
Lemma storage_upd c m b c' L : c_data c = Ptr b 0 -> c_data c' = Ptr b 0 -> storage c m c' (upd m b L).
Proof.
  intros E E'. split; [split; [rewrite upd_length; lia|]|split; [left; congruence|]].
  - rewrite E. cbn. intros. apply upd_other. auto.
  - rewrite E, E', upd_length. cbn. intros x [Hx|Hx] Hn; [tauto|lia].
Qed.

(** append when there is room *)
Lemma append_room m c l x : contains m c l -> zlen l < c_cap c ->
  exists b, c_data c = Ptr b 0 /\ let c' := mk_cont (c_data c) (c_size c + 1) (c_cap c) in
  construct (c_data c) (c_size c) x m = Ok (tt, upd m b (map Some (l ++ [x]) ++ repeat None (Z.to_nat (c_cap c - zlen (l ++ [x]))))) /\
  contains (upd m b (map Some (l ++ [x]) ++ repeat None (Z.to_nat (c_cap c - zlen (l ++ [x]))))) c' (l ++ [x]).
Proof.
  intros (Es & Ec & H) Hr. pose proof (zlen_nn _ l). destruct (c_data c) as [|b o]; [lia|]. destruct H as [-> H].
  exists b. split; auto. cbv zeta. change (zlen (l ++ [x])) with (zlen (l ++ [x])). rewrite zlen_app. change (zlen [x]) with 1.
  replace (Z.to_nat (c_cap c - zlen l)) with (S (Z.to_nat (c_cap c - (zlen l + 1)))) in H by lia. cbn [repeat] in H.
  split.
  - erewrite construct_ok by (eauto; rewrite zlen_map; auto). rewrite map_app, <- app_assoc. reflexivity.
  - split; [cbn; rewrite zlen_app; cbn; unfold zlen in *; lia|]. split; [cbn [c_cap]; rewrite zlen_app; change (zlen [x]) with 1; lia|].
    cbn [c_data c_cap]. split; auto. erewrite upd_same by eauto. rewrite zlen_app. reflexivity.
Qed.

Lemma emplace_spec m c l (arg : M T T) x : contains m c l ->
  (forall c' m', contains m' c' l -> storage c m c' m' -> (c_size c < c_cap c -> m' = m) -> arg m' = Ok (x, m')) ->
  exists c' m', cont_emplace_back moved c arg m = Ok (c', m') /\ contains m' c' (l ++ [x]) /\ storage c m c' m' /\
    (c_size c < c_cap c -> c_data c' = c_data c /\ c_cap c' = c_cap c /\ length m' = length m) /\
    (c_size c = c_cap c -> c_cap c' = 2 * c_cap c + 1 /\ length m' = S (length m)).
Proof.
  intros HC Harg. pose proof (contains_lt _ _ _ HC) as Hlt. pose proof HC as (Es & Ec & H).
  pose proof (zlen_nn _ l) as Hl. unfold cont_emplace_back.
  assert (E : exists c1 m1, (if c_size c =? c_cap c then cont_reserve moved c (c_cap c * 2 + 1) else ret c) m = Ok (c1, m1) /\
    contains m1 c1 l /\ storage c m c1 m1 /\ zlen l < c_cap c1 /\
    (c_size c < c_cap c -> m1 = m /\ c1 = c) /\ (c_size c = c_cap c -> c_cap c1 = 2 * c_cap c + 1 /\ length m1 = S (length m))).
  { destruct (Z.eqb_spec (c_size c) (c_cap c)) as [Ee|Ne].
    - destruct (reserve_spec m c l (c_cap c * 2 + 1) HC) as (c1 & m1 & E & HC1 & S1 & Cap & _ & Len).
      exists c1, m1. split; auto. split; auto. split; auto. split; [lia|]. split; [lia|]. intros _. split; [lia|apply Len; lia].
    - exists c, m. split; [reflexivity|]. split; auto. split; [apply storage_refl|]. split; [lia|]. split; [auto|]. lia. }
  destruct E as (c1 & m1 & E & HC1 & S1 & Hr & Hsame & Hgrow). unfold bind. rewrite E.
  rewrite (Harg c1 m1 HC1 S1) by tauto.
  destruct (append_room m1 c1 l x HC1 Hr) as (b & Eb & E2 & HC2). rewrite E2. unfold ret.
  eexists _, _. split; [reflexivity|]. split; [exact HC2|]. split.
  - eapply storage_trans; [auto|apply S1|]. apply storage_upd; auto.
  - cbn [c_data c_cap]. rewrite upd_length. split.
    + intros Hx. destruct (Hsame Hx) as [-> ->]. auto.
    + intros Hx. apply Hgrow in Hx. tauto.
Qed.

Lemma removelast_snoc A (l : list A) x : removelast (l ++ [x]) = l.
Proof. rewrite removelast_app by discriminate. cbn. apply app_nil_r. Qed.
Lemma pop_spec m c l x : contains m c (l ++ [x]) -> zlen l < 2 ^ 64 ->
  exists c' m', cont_pop_back c m = Ok (c', m') /\ contains m' c' l /\ storage c m c' m' /\
    c_data c' = c_data c /\ c_cap c' = c_cap c.
Proof.
  intros (Es & Ec & H) Hs. rewrite zlen_app in *. change (zlen [x]) with 1 in *. pose proof (zlen_nn _ l).
  unfold cont_pop_back. replace (u64 (c_size c - 1)) with (zlen l).
  2:{ unfold u64, two64. rewrite Z.mod_small; lia. }
  destruct (c_data c) as [|b o] eqn:Eb; [lia|]. destruct H as [-> H].
  rewrite map_app, <- app_assoc in H. cbn [map app] in H.
  unfold bind. erewrite destruct_ok by (eauto; rewrite zlen_map; auto). unfold ret.
  eexists _, _. split; [reflexivity|]. split; [|split; [|auto]].
  - split; [auto|]. split; [cbn; lia|]. cbn [c_data c_cap]. split; auto. erewrite upd_same by eauto.
    replace (Z.to_nat (c_cap c - zlen l)) with (S (Z.to_nat (c_cap c - (zlen l + 1)))) by lia. reflexivity.
  - apply storage_upd; auto.
Qed.

Definition zvals (n : Z) (f : Z -> T) : list T := map (fun k => f (Z.of_nat k)) (seq 0 (Z.to_nat n)).
Lemma zvals_length n f : length (zvals n f) = Z.to_nat n.
Proof. unfold zvals. rewrite map_length. apply seq_length. Qed.
Lemma zvals_nth n f k x : nth_error (zvals n f) k = Some x -> f (Z.of_nat k) = x.
Proof.
  unfold zvals. rewrite nth_error_map. destruct (nth_error (seq 0 (Z.to_nat n)) k) eqn:E; [|discriminate].
  cbn. intros [= <-]. f_equal. f_equal. assert (k < Z.to_nat n)%nat by (rewrite <- (seq_length (Z.to_nat n) 0); eapply nth_lt; eauto).
  rewrite (nth_error_nth' _ 0%nat) in E by (rewrite seq_length; auto). injection E as E. rewrite seq_nth in E by auto. lia.
Qed.
Lemma zvals_const n x : zvals n (fun _ => x) = repeat x (Z.to_nat n).
Proof. unfold zvals. generalize 0%nat. induction (Z.to_nat n); intros k; cbn; auto. now rewrite IHn0. Qed.

(** growing inside the storage *)
Lemma grow_ok m c l n (arg : Z -> T) : contains m c l -> zlen l <= n <= c_cap c ->
  exists m', mfor (c_size c) n (fun i => construct (c_data c) i (arg (i - c_size c))) m = Ok (tt, m') /\
    (forall cap, cap = c_cap c -> contains m' (mk_cont (c_data c) n cap) (l ++ zvals (n - zlen l) arg)) /\
    storage c m (mk_cont (c_data c) n (c_cap c)) m' /\ length m' = length m.
Proof.
  intros HC Hn. pose proof HC as (Es & Ec & H). pose proof (zlen_nn _ l).
  set (xs := zvals (n - zlen l) arg). assert (Lx : zlen xs = n - zlen l) by (unfold zlen, xs; rewrite zvals_length; unfold zlen in *; lia).
  destruct (c_data c) as [|b o] eqn:Eb.
  - assert (n = 0) as -> by lia. assert (l = []) as -> by (destruct l; auto; unfold zlen in *; cbn in *; lia).
    rewrite mfor_done by (cbn in Es; lia). exists m. split; [reflexivity|]. split; [|split; [|auto]].
    + intros cap ->. unfold xs. cbn. split; [reflexivity|]. split; [cbn; lia|]. exact H.
    + split; [split; [lia|auto]|]. split; [left; auto|]. rewrite Eb. cbn. intros b [[]|Hb]. lia.
  - destruct H as [-> H].
    assert (Hsplit : repeat (A := option T) None (Z.to_nat (c_cap c - zlen l)) = repeat None (length xs) ++ repeat None (Z.to_nat (c_cap c - n))).
    { rewrite repeat_app'. f_equal. unfold zlen in *. lia. }
    rewrite Hsplit in H.
    rewrite (construct_loop b xs (map Some l) (repeat None (Z.to_nat (c_cap c - n))) m (fun i => arg (i - c_size c)) (c_size c) n H).
    2:{ rewrite zlen_map. auto. } 2:{ lia. }
    2:{ intros k x Hk. apply zvals_nth in Hk. rewrite <- Hk. f_equal. lia. }
    eexists. split; [reflexivity|]. split; [|split; [apply storage_upd; auto|apply upd_length]].
    intros cap ->. split; [cbn; rewrite zlen_app; lia|]. split; [cbn; rewrite zlen_app; lia|].
    cbn [c_data c_cap]. split; auto. erewrite upd_same by eauto. rewrite map_app, <- app_assoc. do 4 f_equal.
    f_equal. rewrite zlen_app. lia.
Qed.

Lemma resize_spec m c l n (arg : Z -> T) : contains m c l -> 0 <= n ->
  exists c' m', cont_resize moved c n arg m = Ok (c', m') /\
    contains m' c' (firstn (Z.to_nat n) l ++ zvals (n - zlen l) arg) /\ storage c m c' m' /\
    c_cap c' = Z.max (c_cap c) n /\ (n <= c_cap c -> c_data c' = c_data c).
Proof.
  intros HC Hn. pose proof (contains_lt _ _ _ HC) as Hlt. pose proof HC as (Es & Ec & H). pose proof (zlen_nn _ l).
  unfold cont_resize. destruct (Z.ltb_spec (c_cap c) n).
  - destruct (reserve_spec m c l n HC) as (c1 & m1 & E1 & HC1 & S1 & Cap & _ & _). unfold bind. rewrite E1.
    destruct (grow_ok m1 c1 l n arg HC1) as (m2 & E2 & HC2 & S2 & _); [lia|]. rewrite E2. unfold ret.
    exists (mk_cont (c_data c1) n n), m2. split; [reflexivity|]. rewrite firstn_all2 by (unfold zlen in *; lia). split; [|split; [|split]].
    + apply HC2. lia.
    + replace (mk_cont (c_data c1) n n) with (mk_cont (c_data c1) n (c_cap c1)) by (f_equal; lia).
      eapply storage_trans; eauto.
    + cbn. lia.
    + lia.
  - destruct (Z.ltb_spec n (c_size c)).
    + replace (zvals (n - zlen l) arg) with (@nil T) by (unfold zvals; now replace (Z.to_nat (n - zlen l)) with O by lia).
      rewrite app_nil_r. destruct (c_data c) as [|b o] eqn:Eb; [lia|]. destruct H as [-> H].
      rewrite <- (firstn_skipn (Z.to_nat n) l), map_app, <- app_assoc in H.
      assert (L1 : zlen (firstn (Z.to_nat n) l) = n) by (unfold zlen in *; rewrite firstn_length; lia).
      assert (L2 : zlen (skipn (Z.to_nat n) l) = c_size c - n) by (unfold zlen in *; rewrite skipn_length; lia).
      unfold bind, destroy. rewrite (destroy_loop b (skipn (Z.to_nat n) l) (map Some (firstn (Z.to_nat n) l)) _ m n (c_size c) H).
      2:{ now rewrite zlen_map. } 2:{ lia. }
      unfold ret. eexists _, _. split; [reflexivity|]. split; [|split; [apply storage_upd; auto|split; [cbn; lia|auto]]].
      split; [cbn; auto|]. split; [cbn; lia|]. cbn [c_data c_cap]. split; auto. erewrite upd_same by eauto.
      rewrite repeat_app'. do 4 f_equal. unfold zlen in *. rewrite firstn_skipn in *. lia.
    + destruct (grow_ok m c l n arg HC) as (m2 & E2 & HC2 & S2 & _); [lia|]. unfold bind. rewrite E2. unfold ret.
      eexists _, m2. split; [reflexivity|]. rewrite firstn_all2 by (unfold zlen in *; lia).
      split; [apply HC2; auto|]. split; [auto|]. split; [cbn; lia|auto].
Qed.

Lemma skipn_cons A (q : list A) k x : nth_error q k = Some x -> skipn k q = x :: skipn (S k) q.
Proof.
  revert k; induction q as [|a q IH]; destruct k; intros E; try discriminate.
  - now injection E as ->.
  - exact (IH k E).
Qed.
Lemma nth_split_z l i : 0 <= i < zlen l -> exists x, l = firstn (Z.to_nat i) l ++ x :: skipn (S (Z.to_nat i)) l /\ nth_error l (Z.to_nat i) = Some x.
Proof.
  intros Hi. destruct (nth_error l (Z.to_nat i)) as [x|] eqn:E.
  - exists x. split; auto. rewrite <- (firstn_skipn (Z.to_nat i) l) at 1. f_equal.
    now apply skipn_cons.
  - apply nth_error_None in E. unfold zlen in Hi. lia.
Qed.
Lemma write_spec m c l i x : contains m c l -> 0 <= i < zlen l ->
  exists m', cont_set c i x m = Ok (tt, m') /\
    contains m' c (firstn (Z.to_nat i) l ++ x :: skipn (S (Z.to_nat i)) l) /\ storage c m c m'.
Proof.
  intros (Es & Ec & H) Hi. destruct (nth_split_z l i Hi) as (y & El & _).
  assert (Ll : zlen l = zlen (firstn (Z.to_nat i) l ++ x :: skipn (S (Z.to_nat i)) l)).
  { rewrite El at 1. rewrite !zlen_app. f_equal. }
  destruct (c_data c) as [|b o] eqn:Eb; [unfold zlen in *; lia|]. destruct H as [-> H].
  rewrite El, map_app, <- app_assoc in H. cbn [map app] in H.
  assert (Li : i = zlen (map Some (firstn (Z.to_nat i) l))) by (rewrite zlen_map; unfold zlen in *; rewrite firstn_length; lia).
  unfold cont_set, bind. rewrite Eb. erewrite cload_ok by eauto. erewrite cstore_ok by eauto.
  eexists. split; [reflexivity|]. split.
  - split; [lia|]. split; [lia|]. rewrite Eb. split; auto. erewrite upd_same by eauto.
    rewrite map_app, <- app_assoc. cbn [map app]. rewrite <- Ll. rewrite <- El. reflexivity.
  - apply storage_upd; auto.
Qed.

(** ** C27 *)
Lemma step_spec m c l o l' : contains m c l -> zlen l < 2 ^ 64 -> list_step o l = Some l' ->
  exists c' m', cont_step moved o c m = Ok (c', m') /\ contains m' c' l' /\ storage c m c' m'.
Proof.
  intros HC Hs Ho. destruct o as [x| |n x|n|i x]; cbn [list_step cont_step] in *.
  - injection Ho as <-. destruct (emplace_spec m c l (ret x) x HC) as (c' & m' & E & HC' & S' & _); [reflexivity|]. eauto.
  - destruct (exists_last (l := l)) as (l0 & x & ->); [destruct l; discriminate|].
    assert (Ho' : Some (removelast (l0 ++ [x])) = Some l') by (destruct (l0 ++ [x]); [discriminate|auto]).
    rewrite removelast_snoc in Ho'. injection Ho' as <-. rewrite zlen_app in Hs. change (zlen [x]) with 1 in Hs.
    destruct (pop_spec m c l0 x HC) as (c' & m' & E & HC' & S' & _); [lia|]. eauto.
  - destruct (Z.leb_spec 0 n); [|discriminate]. injection Ho as <-.
    destruct (resize_spec m c l n (fun _ => x) HC) as (c' & m' & E & HC' & S' & _); auto.
    exists c', m'. split; auto. split; auto. rewrite zvals_const in HC'.
    replace (Z.to_nat n - length l)%nat with (Z.to_nat (n - zlen l)) by (unfold zlen; lia). auto.
  - injection Ho as <-. destruct (reserve_spec m c l n HC) as (c' & m' & E & HC' & S' & _). eauto.
  - destruct (Z.leb_spec 0 i), (Z.ltb_spec i (zlen l)); try discriminate. injection Ho as <-.
    destruct (write_spec m c l i x HC) as (m' & E & HC' & S'); [lia|]. exists c, m'. erewrite bind_ok by eauto. auto.
Qed.
Lemma run_spec os : forall m c l l', contains m c l -> list_run os l = Some l' ->
  exists c' m', cont_run moved os c m = Ok (c', m') /\ contains m' c' l' /\ storage c m c' m'.
Proof.
  induction os as [|o os IH]; intros m c l l' HC Hr; cbn [list_run cont_run] in *;
    destruct (Z.ltb_spec (zlen l) (2 ^ 64)) as [Hs|]; try discriminate.
  - injection Hr as <-. exists c, m. split; [reflexivity|]. split; auto. apply storage_refl.
  - destruct (list_step o l) as [l1|] eqn:Eo; [|discriminate].
    destruct (step_spec m c l o l1 HC Hs Eo) as (c1 & m1 & E1 & HC1 & S1).
    destruct (IH m1 c1 l1 l' HC1 Hr) as (c2 & m2 & E2 & HC2 & S2).
    exists c2, m2. erewrite bind_ok by eauto. split; auto. split; auto.
    eapply storage_trans; eauto. eapply contains_lt; eauto.
Qed.
Lemma contains_full m b l : nth_error m b = Some (Some (map Some l)) -> contains m (mk_cont (Ptr b 0) (zlen l) (zlen l)) l.
Proof.
  intros H. split; [auto|]. split; [cbn; lia|]. cbn [c_data c_cap]. split; auto. rewrite Z.sub_diag. cbn. now rewrite app_nil_r.
Qed.
Lemma alloc_construct m l (f : Z -> T) n : n = zlen l -> (forall k x, nth_error l k = Some x -> f (Z.of_nat k) = x) ->
  exists m', mfor 0 n (fun i => construct (Ptr (length m) 0) i (f i)) (m ++ [Some (repeat None (Z.to_nat n))]) = Ok (tt, m') /\
    contains m' (mk_cont (Ptr (length m) 0) n n) l /\ keeps (fun _ => False) m m' /\ length m' = S (length m).
Proof.
  intros -> Hf. set (m0 := m ++ _).
  assert (H0 : nth_error m0 (length m) = Some (Some ([] ++ repeat None (length l) ++ []))).
  { unfold m0. rewrite alloc_nth. cbn [app]. rewrite app_nil_r. unfold zlen. now rewrite Nat2Z.id. }
  rewrite (construct_loop (length m) l [] [] m0 f 0 (zlen l) H0); [|reflexivity|lia|].
  2:{ intros k x Hk. rewrite Z.add_0_l. auto. }
  eexists. split; [reflexivity|]. cbn [app]. rewrite app_nil_r. split; [|split].
  - apply contains_full. eapply upd_same; eauto.
  - split; [rewrite upd_length; unfold m0; rewrite app_length; lia|]. intros b Hb _. rewrite upd_other by lia.
    unfold m0. now rewrite nth_error_app1.
  - rewrite upd_length. unfold m0. rewrite app_length. cbn. lia.
Qed.
Lemma new_spec m (k : cctor T) : ctor_ok k ->
  exists c m', cont_new dflt k m = Ok (c, m') /\ contains m' c (list_new dflt k) /\ keeps (fun _ => False) m m' /\
    (forall b, (length m <= b < length m')%nat -> owns_block (c_data c) b) /\ (forall b, owns_block (c_data c) b -> (length m <= b)%nat).
Proof.
  intros Hk. destruct k as [|n|l]; cbn [cont_new list_new ctor_ok] in *.
  - exists cont_default, m. split; [reflexivity|]. split; [repeat split; cbn; lia|]. split; [split; [lia|auto]|]. split; cbn; [lia|tauto].
  - destruct (alloc_construct m (repeat dflt (Z.to_nat n)) (fun _ => dflt) n) as (m' & E & HC & K & L).
    { unfold zlen. rewrite repeat_length. lia. }
    { intros k x Hx. apply nth_error_In, repeat_spec in Hx. auto. }
    unfold cont_sized. erewrite bind_ok by reflexivity. erewrite bind_ok by eauto.
    eexists _, m'. split; [reflexivity|]. split; auto. split; auto. cbn. split; intros; lia.
  - destruct (alloc_construct m l (fun i => nth (Z.to_nat i) l dflt) (zlen l)) as (m' & E & HC & K & L); auto.
    { intros k x Hx. rewrite Nat2Z.id. now apply nth_error_nth. }
    unfold cont_of_list. fold (zlen l). erewrite bind_ok by reflexivity. erewrite bind_ok.
    2:{ rewrite <- E. apply mfor_ext. intros i m1 Hi. unfold znth, zlen in *. destruct (Z.leb_spec 0 i); [|lia].
        now rewrite (nth_error_nth' l dflt) by lia. }
    eexists _, m'. split; [reflexivity|]. split; auto. split; auto. cbn. split; intros; lia.
Qed.

(** Every admissible history on a container made by one of the three constructors, in any
    memory: it runs without undefined behaviour, ends with the contents of the mathematical
    list, touches no storage of other objects, and has released every storage it abandoned. *)
Theorem C27_every_history (k : cctor T) (os : list (cop T)) l' m :
  ctor_ok k -> list_run os (list_new dflt k) = Some l' ->
  exists c' m', (let* c := cont_new dflt k in cont_run moved os c) m = Ok (c', m') /\
    c_size c' = zlen l' /\ c_size c' <= c_cap c' /\ contains m' c' l' /\
    keeps (fun _ => False) m m' /\
    (forall b, (length m <= b < length m')%nat -> ~ owns_block (c_data c') b -> freed m' b).
Proof.
  intros Hk Hr. destruct (new_spec m k Hk) as (c & m1 & E & HC & K & B & B').
  destruct (run_spec os m1 c _ _ HC Hr) as (c2 & m2 & E2 & HC2 & ((L2 & K2) & D2 & F2)).
  exists c2, m2. erewrite bind_ok by eauto. split; auto. pose proof HC2 as (Hs & Hc & _).
  split; auto. split; [lia|]. split; auto. destruct K as [L1 K1]. split; [split; [lia|]|].
  - intros b Hb _. rewrite K2; [apply K1; auto|lia|]. intros Hx. apply B' in Hx. lia.
  - intros b Hb Hn. apply F2; auto. destruct (Nat.lt_ge_cases b (length m1)); [left; apply B; lia|right; lia].
Qed.
(** The same from any container state (so: at every point of every history). *)
Theorem C27_every_state (c : container) (l : list T) (os : list (cop T)) l' m :
  contains m c l -> list_run os l = Some l' ->
  exists c' m', cont_run moved os c m = Ok (c', m') /\ contains m' c' l' /\ storage c m c' m'.
Proof. intros HC Hr. eapply run_spec; eauto. Qed.
(** The destructor destroys the elements and releases the storage, and nothing else. *)
Theorem C27_destructor (c : container) (l : list T) m : contains m c l ->
  exists m', cont_destroy c m = Ok (tt, m') /\ keeps (owns_block (c_data c)) m m' /\
    length m' = length m /\ forall b, owns_block (c_data c) b -> freed m' b.
Proof. intros H. destruct (release_ok m c l H) as (m' & E & K & F & L). exists m'. auto. Qed.
(** The observers show the contents. *)
Theorem C27_observers (c : container) (l : list T) m : contains m c l -> zlen l < 2 ^ 64 ->
  c_size c = zlen l /\ (cont_empty c = true <-> l = []) /\
  (forall i x, nth_error l i = Some x -> cont_get c (Z.of_nat i) m = Ok (x, m)) /\
  (l <> [] -> exists x y, nth_error l 0 = Some x /\ cont_front c m = Ok (x, m) /\
     nth_error l (length l - 1) = Some y /\ cont_back c m = Ok (y, m)).
Proof.
  intros HC Hs. pose proof HC as (Es & Ec & H).
  assert (G : forall i x, nth_error l i = Some x -> cont_get c (Z.of_nat i) m = Ok (x, m)).
  { intros i x Hx. unfold cont_get. assert (i < length l)%nat by (eapply nth_lt; eauto).
    destruct (c_data c) as [|b o] eqn:Eb; [unfold zlen in *; lia|]. destruct H as [-> H].
    apply load_ok. unfold elem, cell. rewrite H. unfold znth. destruct (Z.leb_spec 0 (0 + Z.of_nat i)); [|lia].
    rewrite Z.add_0_l, Nat2Z.id, nth_error_app1 by (rewrite map_length; auto). rewrite nth_error_map, Hx. reflexivity. }
  split; auto. split; [|split; auto].
  - unfold cont_empty. rewrite Es, Z.eqb_eq. unfold zlen. destruct l; cbn; split; try lia; try discriminate; auto.
  - intros Hn. assert (0 < length l)%nat by (destruct l; [congruence|cbn; lia]).
    destruct (nth_error l 0) as [x|] eqn:Ex; [|apply nth_error_None in Ex; lia].
    destruct (nth_error l (length l - 1)) as [y|] eqn:Ey; [|apply nth_error_None in Ey; lia].
    exists x, y. split; auto. split; [apply (G 0%nat x Ex)|]. split; auto. specialize (G _ _ Ey). unfold cont_back, cont_get in *.
    rewrite <- G. f_equal. unfold u64, two64. rewrite Es. unfold zlen in *. rewrite Z.mod_small; lia.
Qed.

(** ** C28 *)
Lemma copy_into m c l n : contains m c l -> zlen l <= n ->
  exists m', mfor 0 (c_size c) (fun i => let* x := load (c_data c) i in construct (Ptr (length m) 0) i x)
      (m ++ [Some (repeat None (Z.to_nat n))]) = Ok (tt, m') /\
    nth_error m' (length m) = Some (Some (map Some l ++ repeat None (Z.to_nat (n - zlen l)))) /\
    keeps (fun _ => False) m m' /\ length m' = S (length m).
Proof.
  intros HC Hn. pose proof (contains_lt _ _ _ HC) as Hlt. destruct HC as (Es & Ec & H). pose proof (zlen_nn _ l).
  set (m0 := m ++ _).
  assert (H0' : nth_error m0 (length m) = Some (Some ([] ++ repeat None (length l) ++ repeat None (Z.to_nat (n - zlen l))))).
  { unfold m0. rewrite alloc_nth. cbn [app]. rewrite repeat_app'. do 3 f_equal. unfold zlen in *. lia. }
  assert (K0 : forall b, (b < length m)%nat -> nth_error m0 b = nth_error m b) by (intros; unfold m0; now rewrite nth_error_app1).
  assert (L0 : length m0 = S (length m)) by (unfold m0; rewrite app_length; cbn; lia).
  destruct (c_data c) as [|b o] eqn:Eb.
  - assert (l = []) as -> by (destruct l; auto; unfold zlen in *; cbn in *; lia).
    rewrite mfor_done by (cbn in Es; lia). exists m0. split; auto. split; [auto|]. split; auto. split; [lia|auto].
  - destruct H as [-> H]. assert (length m <> b) by (specialize (Hlt b eq_refl); lia).
    rewrite (copy_loop (length m) b H1 l [] [] (repeat None (Z.to_nat (c_cap c - zlen l))) (repeat None (Z.to_nat (n - zlen l))) m0 0 (c_size c)); auto.
    2:{ cbn [app]. rewrite K0; auto. apply Hlt. reflexivity. }
    cbn [app]. eexists. split; [reflexivity|]. split; [eapply upd_same; eauto|]. rewrite upd_length. split; auto.
    split; [rewrite upd_length; lia|]. intros x Hx _. rewrite upd_other by lia. auto.
Qed.
(** Copy construction: always equal elements in separate storage, source unchanged. *)
Theorem C28_copy_ctor_elements (src : container) (l : list T) m : contains m src l ->
  exists c m', cont_copy src m = Ok (c, m') /\ c_size c = zlen l /\ c_data c = Ptr (length m) 0 /\
    contains m' src l /\ keeps (fun _ => False) m m' /\
    forall i x, nth_error l i = Some x -> cont_get c (Z.of_nat i) m' = Ok (x, m').
Proof.
  intros HC. pose proof HC as (Es & Ec & _). unfold cont_copy. erewrite bind_ok by reflexivity.
  destruct (copy_into m src l (c_size src) HC) as (m' & E & N & K & L); [lia|]. erewrite bind_ok by eauto.
  eexists _, m'. split; [reflexivity|]. cbn [c_size c_data]. split; auto. split; auto.
  split; [eapply contains_keeps; eauto|]. split; auto. intros i x Hx. unfold cont_get. cbn [c_data].
  apply load_ok. unfold elem, cell. rewrite N. unfold znth. destruct (Z.leb_spec 0 (0 + Z.of_nat i)); [|lia].
  assert (i < length l)%nat by (eapply nth_lt; eauto).
  rewrite Z.add_0_l, Nat2Z.id, nth_error_app1 by (rewrite map_length; auto). rewrite nth_error_map, Hx. reflexivity.
Qed.
(** ... and if the source is full, the copy supports every history. *)
Theorem C28_copy_ctor_of_full_partial (src : container) (l : list T) m (os : list (cop T)) l' :
  contains m src l -> c_size src = c_cap src -> list_run os l = Some l' ->
  exists c m' c2 m2, cont_copy src m = Ok (c, m') /\ contains m' c l /\
    cont_run moved os c m' = Ok (c2, m2) /\ contains m2 c2 l' /\ contains m2 src l.
Proof.
  intros HC Hf Hr. pose proof HC as (Es & Ec & _). pose proof (contains_lt _ _ _ HC) as Hlt. unfold cont_copy. erewrite bind_ok by reflexivity.
  destruct (copy_into m src l (c_size src) HC) as (m' & E & N & K & L); [lia|]. erewrite bind_ok by eauto.
  assert (HC' : contains m' (mk_cont (Ptr (length m) 0) (c_size src) (c_cap src)) l).
  { split; [auto|]. split; auto. cbn [c_data c_cap]. split; auto. rewrite N, Hf. reflexivity. }
  destruct (run_spec os m' _ l l' HC' Hr) as (c2 & m2 & E2 & HC2 & (K2 & _)).
  eexists _, m', c2, m2. split; [reflexivity|]. split; auto. split; auto. split; auto.
  eapply contains_keeps; [eapply contains_keeps; eauto|eauto|]. cbn. intros b Hb ->. apply Hlt in Hb. lia.
Qed.
(** Otherwise the first append to the copy writes outside its storage. *)
Theorem C28_copy_ctor_refuted (src : container) (l : list T) m (x : T) :
  contains m src l -> c_size src < c_cap src ->
  (let* c := cont_copy src in cont_emplace_back moved c (ret x)) m = UB OutOfBounds.
Proof.
  intros HC Hf. pose proof HC as (Es & Ec & _). unfold cont_copy.
  destruct (copy_into m src l (c_size src) HC) as (m' & E & N & K & L); [lia|].
  erewrite bind_ok. 2:{ erewrite bind_ok by reflexivity. erewrite bind_ok by eauto. reflexivity. }
  unfold cont_emplace_back. cbn [c_size c_cap]. destruct (Z.eqb_spec (c_size src) (c_cap src)); [lia|].
  do 2 (erewrite bind_ok by reflexivity). cbn [c_data c_size]. unfold bind, construct. rewrite N, Es, Z.sub_diag. cbn [Z.to_nat repeat].
  rewrite app_nil_r. unfold znth. rewrite Z.add_0_l. destruct (Z.leb_spec 0 (zlen l)); [|unfold zlen in *; lia].
  assert (X : nth_error (map Some l) (Z.to_nat (zlen l)) = None) by (apply nth_error_None; rewrite map_length; unfold zlen; lia).
  now rewrite X.
Qed.
(** Copy assignment: the target has the source's elements in separate storage, its former
    storage is released, and it supports every history. *)
Theorem C28_copy_assign_partial (c src : container) (lc l : list T) m (os : list (cop T)) l' :
  contains m c lc -> contains m src l -> (forall b, owns_block (c_data c) b -> ~ owns_block (c_data src) b) ->
  list_run os l = Some l' ->
  exists c1 m1 c2 m2, cont_copy_assign false c src m = Ok (c1, m1) /\ contains m1 c1 l /\ contains m1 src l /\
    c_data c1 = Ptr (length m) 0 /\ keeps (owns_block (c_data c)) m m1 /\
    (forall b, owns_block (c_data c) b -> freed m1 b) /\
    cont_run moved os c1 m1 = Ok (c2, m2) /\ contains m2 c2 l' /\ contains m2 src l.
Proof.
  intros HC HS Hd Hr. pose proof HS as (Es & Ec & _). pose proof (contains_lt _ _ _ HS) as Hlt. pose proof (contains_lt _ _ _ HC) as Hlt'.
  unfold cont_copy_assign.
  destruct (release_ok m c lc HC) as (m0 & E0 & K0 & F0 & L0).
  assert (HS0 : contains m0 src l) by (eapply contains_keeps; eauto; intros b Hb Hc; eapply Hd; eauto).
  assert (EQ : (destroy (c_data c) 0 (c_size c);;; (deallocate (c_data c);;;
     (let* p := alloc (c_cap src) in mfor 0 (c_size src) (fun i => let* x := load (c_data src) i in construct p i x);;;
      ret (mk_cont p (c_size src) (c_cap src))))) m =
     (let* p := alloc (c_cap src) in mfor 0 (c_size src) (fun i => let* x := load (c_data src) i in construct p i x);;;
      ret (mk_cont p (c_size src) (c_cap src))) m0).
  { unfold bind at 1 2. unfold bind at 1 in E0. destruct (destroy (c_data c) 0 (c_size c) m) as [[[] mm]|]; [|discriminate].
    rewrite E0. reflexivity. }
  rewrite EQ. erewrite bind_ok by reflexivity.
  destruct (copy_into m0 src l (c_cap src) HS0 Ec) as (m1 & E1 & N1 & K1 & L1). erewrite bind_ok by eauto.
  assert (HC1 : contains m1 (mk_cont (Ptr (length m0) 0) (c_size src) (c_cap src)) l).
  { split; [auto|]. split; auto. cbn [c_data c_cap]. split; auto. }
  destruct (run_spec os m1 _ l l' HC1 Hr) as (c2 & m2 & E2 & HC2 & (K2 & _)).
  assert (HS1 : contains m1 src l) by (eapply contains_keeps; eauto).
  eexists _, m1, c2, m2. split; [reflexivity|]. split; auto. split; auto. split; [cbn; congruence|].
  destruct K0 as [K0 K0'], K1 as [K1 K1']. split; [split; [lia|]|].
  { intros b Hb Hn. rewrite K1' by (auto; lia). apply K0'; auto. }
  split; [intros b Hb; unfold freed in *; rewrite K1'; auto; specialize (Hlt' b Hb); lia|].
  split; auto. split; auto. eapply contains_keeps; eauto. cbn. intros b Hb ->. apply Hlt in Hb. lia.
Qed.
Theorem C28_self_assign (c : container) m : cont_copy_assign (T := T) true c c m = Ok (c, m).
Proof. reflexivity. Qed.

(** ** C29 *)
Theorem C29_reserve (c : container) (l : list T) m n : contains m c l ->
  exists c' m', cont_reserve moved c n m = Ok (c', m') /\ contains m' c' l /\ n <= c_cap c' /\
    c_cap c' = Z.max (c_cap c) n /\ storage c m c' m' /\ (n <= c_cap c -> c' = c /\ m' = m).
Proof.
  intros HC. destruct (reserve_spec m c l n HC) as (c' & m' & E & HC' & S' & Cap & Same & _).
  exists c', m'. repeat (split; auto). lia.
Qed.
Theorem C29_append (c : container) (l : list T) m x : contains m c l ->
  exists c' m', cont_emplace_back moved c (ret x) m = Ok (c', m') /\ contains m' c' (l ++ [x]) /\
    (c_size c < c_cap c -> c_data c' = c_data c /\ c_cap c' = c_cap c /\ length m' = length m) /\
    (c_size c = c_cap c -> c_cap c' = 2 * c_cap c + 1 /\ length m' = S (length m)).
Proof.
  intros HC. destruct (emplace_spec m c l (ret x) x HC) as (c' & m' & E & HC' & S' & A & B); [reflexivity|].
  exists c', m'. auto.
Qed.
Lemma appends_spec : forall xs c l m (k0 : nat) C, contains m c l -> 0 < C ->
  c_cap c + 1 = 2 ^ Z.of_nat k0 * C -> ((1 <= k0)%nat -> 2 ^ (Z.of_nat k0 - 1) * C <= zlen l) ->
  exists c' m', cont_run moved (map EmplaceBack xs) c m = Ok (c', m') /\ contains m' c' (l ++ xs) /\ (length m <= length m')%nat /\
    let k := (k0 + (length m' - length m))%nat in
    c_cap c' + 1 = 2 ^ Z.of_nat k * C /\ ((1 <= k)%nat -> 2 ^ (Z.of_nat k - 1) * C <= zlen (l ++ xs)).
Proof.
  induction xs as [|x xs IH]; intros c l m k0 C HC HCp Hcap Hk; cbn [map cont_run cont_step].
  - exists c, m. split; [reflexivity|]. rewrite app_nil_r. split; auto. split; auto. cbv zeta.
    rewrite Nat.sub_diag, Nat.add_0_r. auto.
  - destruct (C29_append c l m x HC) as (c1 & m1 & E1 & HC1 & A & B). erewrite bind_ok by eauto.
    pose proof HC as (Es & Ec & _).
    destruct (Z.eq_dec (c_size c) (c_cap c)) as [Hf|Hf].
    + destruct (B Hf) as [Hc1 L1].
      destruct (IH c1 (l ++ [x]) m1 (S k0) C HC1 HCp) as (c2 & m2 & E2 & HC2 & L2 & Hc2 & Hb2).
      * rewrite Nat2Z.inj_succ, Z.pow_succ_r by lia. lia.
      * intros _. rewrite zlen_app. change (zlen [x]) with 1. replace (Z.of_nat (S k0) - 1) with (Z.of_nat k0) by lia. lia.
      * exists c2, m2. rewrite <- app_assoc in *. split; auto. split; auto. split; [lia|]. cbv zeta in *.
        replace (k0 + (length m2 - length m))%nat with (S k0 + (length m2 - length m1))%nat by lia. auto.
    + destruct A as (_ & Hc1 & L1); [lia|].
      destruct (IH c1 (l ++ [x]) m1 k0 C HC1 HCp) as (c2 & m2 & E2 & HC2 & L2 & Hc2 & Hb2).
      * lia.
      * intros H. specialize (Hk H). rewrite zlen_app. change (zlen [x]) with 1. lia.
      * exists c2, m2. rewrite <- app_assoc in *. split; auto. split; auto. split; [lia|]. cbv zeta in *.
        replace (k0 + (length m2 - length m))%nat with (k0 + (length m2 - length m1))%nat by lia. auto.
Qed.
(** Appending any list of elements reallocates at most log2(final size) + 1 times; every
    reallocation allocates one block. *)
Theorem C29_reallocations (c : container) (l xs : list T) m : contains m c l ->
  exists c' m', cont_run moved (map EmplaceBack xs) c m = Ok (c', m') /\ contains m' c' (l ++ xs) /\
    let reallocations := Z.of_nat (length m') - Z.of_nat (length m) in
    0 <= reallocations <= Z.log2 (zlen (l ++ xs)) + 1.
Proof.
  intros HC. pose proof HC as (Es & Ec & _). pose proof (zlen_nn _ l).
  destruct (appends_spec xs c l m 0 (c_cap c + 1) HC) as (c' & m' & E & HC' & L & _ & Hb); [lia|change (Z.of_nat 0) with 0; rewrite Z.pow_0_r; lia|lia|].
  exists c', m'. split; auto. split; auto. cbv zeta. cbn [Nat.add] in Hb. pose proof (Z.log2_nonneg (zlen (l ++ xs))).
  split; [lia|]. destruct (Nat.eq_dec (length m' - length m) 0); [lia|].
  specialize (Hb ltac:(lia)).
  assert (2 ^ (Z.of_nat (length m' - length m) - 1) <= zlen (l ++ xs)).
  { pose proof (Z.pow_nonneg 2 (Z.of_nat (length m' - length m) - 1)). nia. }
  apply Z.log2_le_mono in H1. rewrite Z.log2_pow2 in H1 by lia. lia.
Qed.

(** ** C30 *)
(** The target of a move has the contents and the very storage; the source lets go of it. *)
Theorem C30_move_partial (src : container) (l : list T) m : contains m src l ->
  let '(dst, src') := cont_move src in
  contains m dst l /\ c_data dst = c_data src /\ c_data src' = Null /\
  cont_destroy (T := T) src' m = Ok (tt, m).
Proof.
  intros HC. cbn. split; [destruct src; exact HC|]. auto.
Qed.
Theorem C30_move_assign_partial (c src : container) (lc l : list T) m : contains m c lc -> contains m src l ->
  (forall b, owns_block (c_data c) b -> ~ owns_block (c_data src) b) ->
  exists dst src' m', cont_move_assign false c src m = Ok ((dst, src'), m') /\ contains m' dst l /\
    c_data dst = c_data src /\ c_data src' = Null /\ keeps (owns_block (c_data c)) m m' /\ length m' = length m /\
    forall b, owns_block (c_data c) b -> freed m' b.
Proof.
  intros HC HS Hd. destruct (release_ok m c lc HC) as (m0 & E0 & K0 & F0 & L0).
  assert (HS0 : contains m0 src l) by (eapply contains_keeps; eauto; intros b Hb Hc; eapply Hd; eauto).
  unfold cont_move_assign. exists (mk_cont (c_data src) (c_size src) (c_cap src)), (mk_cont Null (c_size src) (c_cap src)), m0.
  split; [|split; [destruct src; exact HS0|auto 6]].
  unfold bind at 1 in E0. unfold bind at 1. destruct (destroy (c_data c) 0 (c_size c) m) as [[[] mm]|]; [|discriminate].
  erewrite bind_ok by eauto. reflexivity.
Qed.
(** But the source still reports the old size, and unless it never had storage, appending to
    it is undefined behaviour. *)
Theorem C30_moved_from_size_refuted (src : container) : 
  c_size (snd (cont_move src)) = c_size src /\ c_cap (snd (cont_move src)) = c_cap src.
Proof. split; reflexivity. Qed.
Theorem C30_moved_from_append_refuted (src : container) (l : list T) m x : contains m src l -> 0 < c_cap src ->
  cont_emplace_back moved (snd (cont_move src)) (ret x) m = UB NullDeref.
Proof.
  intros (Es & Ec & _) Hc. pose proof (zlen_nn _ l). cbn [cont_move snd]. unfold cont_emplace_back. cbn [c_size c_cap c_data].
  destruct (Z.eqb_spec (c_size src) (c_cap src)).
  - unfold cont_reserve. cbn [c_size c_cap c_data]. destruct (Z.ltb_spec (c_cap src) (c_cap src * 2 + 1)); [|lia].
    unfold bind at 1 2. cbn. unfold mfor, mfold. replace (Z.to_nat (c_size src - 0)) with (S (Z.to_nat (c_size src - 1))) by lia.
    reflexivity.
  - reflexivity.
Qed.

(** ** C31 *)
(** While there is room, appending an own element appends a copy of it. *)
Theorem C31_own_element_room_partial (c : container) (l : list T) m i x : contains m c l -> c_size c < c_cap c ->
  nth_error l i = Some x ->
  exists c' m', cont_emplace_back moved c (load (c_data c) (Z.of_nat i)) m = Ok (c', m') /\ contains m' c' (l ++ [x]).
Proof.
  intros HC Hr Hx. destruct (emplace_spec m c l (load (c_data c) (Z.of_nat i)) x HC) as (c' & m' & E & HC' & _).
  - intros c1 m1 _ _ Hm. rewrite (Hm Hr).
    assert (Hlt : (i < length l)%nat) by (eapply nth_lt; eauto). destruct HC as (Es & Ec & H).
    destruct (c_data c) as [|b o] eqn:Eb; [unfold zlen in *; lia|]. destruct H as [-> H].
    apply load_ok. unfold elem, cell. rewrite H. unfold znth. destruct (Z.leb_spec 0 (0 + Z.of_nat i)); [|lia].
    rewrite Z.add_0_l, Nat2Z.id, nth_error_app1 by (rewrite map_length; auto). rewrite nth_error_map, Hx. reflexivity.
  - eauto.
Qed.
(** When the append reallocates, the referenced element has been destroyed and its storage
    released before it is read: undefined behaviour for every full container and every element. *)
Theorem C31_own_element_full_refuted (c : container) (l : list T) m i : contains m c l -> c_size c = c_cap c ->
  (i < length l)%nat ->
  cont_emplace_back moved c (load (c_data c) (Z.of_nat i)) m = UB UseAfterFree.
Proof.
  intros HC Hf Hi. pose proof HC as (Es & Ec & H). unfold cont_emplace_back. rewrite Hf, Z.eqb_refl.
  destruct (reserve_spec m c l (c_cap c * 2 + 1) HC) as (c1 & m1 & E & HC1 & (K1 & D1 & F1) & Cap & _ & Len).
  erewrite bind_ok by eauto. destruct Len as [Len Ed]; [unfold zlen in *; lia|].
  destruct (c_data c) as [|b o] eqn:Eb; [unfold zlen in *; lia|]. destruct H as [-> H].
  assert (Fr : freed m1 b). { apply F1; [cbn; auto|]. rewrite Ed. cbn. apply nth_lt in H. lia. }
  unfold bind, load. unfold freed in Fr. rewrite Fr. reflexivity.
Qed.

(** ** C32 *)
Theorem C32_traversal_partial (c : container) (l : list T) m : contains m c l ->
  forall i x, nth_error l i = Some x ->
    it_index (it_begin c) (Z.of_nat i) m = Ok (x, m) /\
    it_deref (Nat.iter i it_incr (it_begin c)) m = Ok (x, m) /\
    it_eqb (Nat.iter i it_incr (it_begin c)) (it_end c) = false /\
    it_eqb (Nat.iter (length l) it_incr (it_begin c)) (it_end c) = true.
Proof.
  intros HC i x Hx. assert (Hi : (i < length l)%nat) by (eapply nth_lt; eauto). pose proof HC as (Es & Ec & H).
  destruct (c_data c) as [|b o] eqn:Eb; [unfold zlen in *; lia|]. destruct H as [-> H].
  assert (It : forall k, Nat.iter k it_incr (it_begin c) = mk_iter (Ptr b (Z.of_nat k))).
  { induction k; [cbn; unfold it_begin; now rewrite Eb|].
    change (Nat.iter (S k) it_incr (it_begin c)) with (it_incr (Nat.iter k it_incr (it_begin c))). rewrite IHk.
    unfold it_incr. cbn. do 2 f_equal. lia. }
  assert (L : load (Ptr b 0) (Z.of_nat i) m = Ok (x, m)).
  { apply load_ok. unfold elem, cell. rewrite H. unfold znth. destruct (Z.leb_spec 0 (0 + Z.of_nat i)); [|lia].
    rewrite Z.add_0_l, Nat2Z.id, nth_error_app1 by (rewrite map_length; auto). rewrite nth_error_map, Hx. reflexivity. }
  rewrite !It. unfold it_index, it_deref, it_begin, it_eqb, it_end. rewrite Eb. cbn [it_ptr padd ptr_eqb]. rewrite Nat.eqb_refl, Es.
  split; auto. split; [|split].
  - rewrite <- L. unfold load. now rewrite Z.add_0_l, Z.add_0_r.
  - cbn. apply Z.eqb_neq. unfold zlen. lia.
  - cbn. apply Z.eqb_eq. unfold zlen. lia.
Qed.
(** [*(begin() + n)] is the first element, whatever [n]. *)
Theorem C32_iterator_plus_refuted (c : container) (l : list T) m (n : Z) x : contains m c l -> nth_error l 0 = Some x ->
  it_deref (it_plus (it_begin c) n) m = Ok (x, m).
Proof. intros HC Hx. apply (C32_traversal_partial c l m HC 0%nat x Hx). Qed.

(** ** C83 *)
Theorem C83_resize_lvalue_partial (c : container) (l : list T) m n x : contains m c l -> zlen l <= n ->
  exists c' m', cont_resize moved c n (fun _ => x) m = Ok (c', m') /\ contains m' c' (l ++ repeat x (Z.to_nat (n - zlen l))).
Proof.
  intros HC Hn. pose proof (zlen_nn _ l). destruct (resize_spec m c l n (fun _ => x) HC) as (c' & m' & E & HC' & _); [lia|].
  exists c', m'. split; auto. rewrite zvals_const, firstn_all2 in HC' by (unfold zlen in *; lia). auto.
Qed.
(** With a temporary, the first new element gets the value and the second the moved-from
    remains of it. *)
Theorem C83_resize_rvalue_refuted (c : container) (l : list T) m n x : contains m c l -> zlen l + 2 <= n ->
  exists c' m' rest, cont_resize moved c n (resize_rvalue moved x) m = Ok (c', m') /\
    contains m' c' (l ++ x :: moved x :: rest).
Proof.
  intros HC Hn. pose proof (zlen_nn _ l). destruct (resize_spec m c l n (resize_rvalue moved x) HC) as (c' & m' & E & HC' & _); [lia|].
  rewrite firstn_all2 in HC' by (unfold zlen in *; lia). unfold zvals in HC'.
  replace (Z.to_nat (n - zlen l)) with (S (S (Z.to_nat (n - zlen l - 2)))) in HC' by lia. cbn [seq map] in HC'.
  eexists c', m', _. split; [eauto|]. exact HC'.
Qed.
End Proofs.

(** The storage of these theorems is strict: constructing over an object, destroying raw storage and releasing storage that still holds an
    object are errors, so a theorem that an operation succeeds excludes them. *)
Theorem C27_storage_is_strict {T} (m : mem T) b l i (x y : T) : nth_error m b = Some (Some l) -> nth_error l i = Some (Some y) ->
  construct (Ptr b 0) (Z.of_nat i) x m = UB BadCall /\ deallocate (Ptr b 0) m = UB BadFree /\
  exists m', destruct_at (Ptr b 0) (Z.of_nat i) m = Ok (tt, m') /\ load (Ptr b 0) (Z.of_nat i) m' = UB UninitRead /\
    destruct_at (Ptr b 0) (Z.of_nat i) m' = UB BadCall.
Proof.
  intros Eb Ei. assert (Z1 : znth l (0 + Z.of_nat i) = Some (Some y)). { unfold znth. rewrite Z.add_0_l, Nat2Z.id. destruct (Z.leb_spec 0 (Z.of_nat i)); [exact Ei|lia]. }
  split; [unfold construct; now rewrite Eb, Z1|]. split.
  - unfold deallocate. rewrite Eb. cbn [Z.eqb andb]. destruct (forallb _ l) eqn:F; [|reflexivity]. rewrite forallb_forall in F. specialize (F _ (nth_error_In _ _ Ei)). discriminate.
  - eexists. split; [unfold destruct_at; now rewrite Eb, Z1|]. set (m' := set_nth b _ m).
    assert (E2 : nth_error m' b = Some (Some (set_nth (Z.to_nat (0 + Z.of_nat i)) None l))) by (apply nth_set_nth_same, nth_error_Some; congruence).
    assert (Z2 : znth (set_nth (Z.to_nat (0 + Z.of_nat i)) None l) (0 + Z.of_nat i) = Some None).
    { unfold znth. rewrite Z.add_0_l, Nat2Z.id. destruct (Z.leb_spec 0 (Z.of_nat i)); [|lia]. apply nth_set_nth_same, nth_error_Some. congruence. }
    split; [unfold load|unfold destruct_at]; now rewrite E2, Z2.
Qed.

Module Examples.
(** a history with growth, shrinking and writes on a sized container, on a heap that already
    holds a foreign block *)
Definition m0 : mem Z := [Some [Some 99]].
Definition hist : list (cop Z) :=
  [EmplaceBack 5; EmplaceBack 6; Write 0 1; PopBack; Resize 7 8; Reserve 20; Resize 3 0; EmplaceBack 9].
Example admissible : list_run hist (list_new 0 (NewSized 2)) = Some [1; 0; 5; 9].
Proof. vm_compute. reflexivity. Qed.
Example runs : (let* c := cont_new 0 (NewSized 2) in cont_run (fun _ => -1) hist c) m0 =
  Ok (mk_cont (Ptr 4 0) 4 20, [Some [Some 99]; None; None; None; Some (map Some [1;0;5;9] ++ repeat None 16)]).
Proof. vm_compute. reflexivity. Qed.
(** a container with spare capacity, as the hypotheses of C28, C30, C31 ask for *)
Definition spare : container := mk_cont (Ptr 0 0) 2 5.
Definition m1 : mem Z := [Some [Some 3; Some 4; None; None; None]].
Example hyp : contains m1 spare [3; 4] /\ c_size spare < c_cap spare.
Proof. repeat split; cbn; lia. Qed.
Example copy_then_append : (let* c := cont_copy spare in cont_emplace_back (fun x => x) c (ret 7)) m1 = UB OutOfBounds.
Proof. vm_compute. reflexivity. Qed.
Definition full : container := mk_cont (Ptr 0 0) 2 2.
Definition m2 : mem Z := [Some [Some 3; Some 4]].
Example hyp_full : contains m2 full [3; 4] /\ c_size full = c_cap full.
Proof. repeat split; cbn; lia. Qed.
Example own_element : cont_emplace_back (fun x => x) full (load (c_data full) 0) m2 = UB UseAfterFree.
Proof. vm_compute. reflexivity. Qed.
Example plus_one : it_deref (it_plus (it_begin full) 1) m2 = Ok (3, m2).
Proof. vm_compute. reflexivity. Qed.
End Examples.

Print Assumptions C83_resize_lvalue_partial.
Print Assumptions C83_resize_rvalue_refuted.
Print Assumptions C27_every_history.
Print Assumptions C27_every_state.
Print Assumptions C27_destructor.
Print Assumptions C27_observers.
Print Assumptions C28_copy_ctor_elements.
Print Assumptions C28_copy_ctor_of_full_partial.
Print Assumptions C28_copy_ctor_refuted.
Print Assumptions C28_copy_assign_partial.
Print Assumptions C28_self_assign.
Print Assumptions C29_reserve.
Print Assumptions C29_append.
Print Assumptions C29_reallocations.
Print Assumptions C30_move_partial.
Print Assumptions C30_move_assign_partial.
Print Assumptions C30_moved_from_size_refuted.
Print Assumptions C30_moved_from_append_refuted.
Print Assumptions C31_own_element_room_partial.
Print Assumptions C31_own_element_full_refuted.
Print Assumptions C32_traversal_partial.
Print Assumptions C32_iterator_plus_refuted.
Print Assumptions C27_storage_is_strict.
