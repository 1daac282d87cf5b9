(** * Programs with any number of containers, plain and locked (C128) *)
From Verif Require Import Mem MemSpec MemLemmas Container PropContainer ContProgram ContProgramSpec ContProgramProofs.

Section Proofs.
Context {T : Type} (moved : T -> T) (dflt : T).
Implicit Types (m : mem T) (l : list T) (c : container) (s : list (option kobj)) (A : list (option (aobj T))).

Lemma good_empty (m0 : mem T) : good_state m0 [] m0 [].
Proof.
  assert (N : forall b i, ~ holder [] b i) by (intros b i (x & E & _); destruct i; discriminate).
  split; [auto|]. split; [intros [|i] x y; discriminate|]. split; [intros i j b H; now apply N in H|].
  split; [split; [lia|auto]|]. split; [intros i b H; now apply N in H|]. intros b Hb. lia.
Qed.
Lemma run_ok p : forall m0 s m A A', good_state m0 s m A -> a_run dflt p A = Runs A' ->
  exists s' m', k_run moved dflt p s m = Ok (s', m') /\ good_state m0 s' m' A'.
Proof.
  induction p as [|q p IH]; intros m0 s m A A' G E; cbn [a_run k_run] in *; destruct (fits A) eqn:Hf; try discriminate.
  - injection E as <-. exists s, m. auto.
  - destruct (a_step dflt q A) as [A1|] eqn:Ea; [|discriminate].
    destruct (k_step_ok moved dflt m0 s m A q A1 G Hf Ea) as (s1 & m1 & E1 & G1). erewrite bind_ok by exact E1. eauto.
Qed.
Lemma run_ub p : forall m0 s m A, good_state m0 s m A -> a_run dflt p A = Breaks -> exists e, k_run moved dflt p s m = UB e.
Proof.
  induction p as [|q p IH]; intros m0 s m A G E; cbn [a_run k_run] in *; destruct (fits A) eqn:Hf; try discriminate.
  destruct (a_step dflt q A) as [A1|] eqn:Ea.
  - destruct (k_step_ok moved dflt m0 s m A q A1 G Hf Ea) as (s1 & m1 & E1 & G1). erewrite bind_ok by exact E1. eauto.
  - destruct (k_step_ub moved dflt m0 s m A q G Hf Ea) as (e & E1). exists e. now apply bind_ub.
Qed.

(** An allowed program, started in any memory, runs without undefined behaviour and ends with
    every object as the description says: contents, size, capacity, kind; no two objects share
    storage, the memory that was there before is as it was, and every block obtained on the
    way has been released or belongs to an object. *)
Theorem C128_programs (p : list (kstmt T)) A (m0 : mem T) : a_run dflt p [] = Runs A ->
  exists s m, k_run moved dflt p [] m0 = Ok (s, m) /\ good_state m0 s m A.
Proof. intros E. exact (run_ok p m0 [] m0 [] A (good_empty m0) E). Qed.
(** The rules are exact: a program they do not allow does reach undefined behaviour (or uses an
    object that does not exist, or a member function its type does not offer). *)
Theorem C128_undefined (p : list (kstmt T)) (m0 : mem T) : a_run dflt p [] = Breaks ->
  exists e, k_run moved dflt p [] m0 = UB e.
Proof. intros E. exact (run_ub p m0 [] m0 [] (good_empty m0) E). Qed.
(** What the observers of an object say. *)
Theorem C128_observers (m0 : mem T) s m A a lk l cap room : good_state m0 s m A -> fits A = true ->
  nth_error A a = Some (Some (lk, Holds l cap room)) ->
  exists c, nth_error s a = Some (Some (lk, c)) /\ c_size c = zlen l /\ c_cap c = cap /\ (cont_empty c = true <-> l = []) /\
    (forall i x, nth_error l i = Some x -> cont_get c (Z.of_nat i) m = Ok (x, m)) /\
    (l <> [] -> exists x y, nth_error l 0 = Some x /\ cont_front c m = Ok (x, m) /\
       nth_error l (length l - 1) = Some y /\ cont_back c m = Ok (y, m)).
Proof.
  intros G Hf HA. assert (Eg : a_get A a = Some (lk, Holds l cap room)) by (unfold a_get; now rewrite HA).
  destruct (look m0 s m A a lk _ G Eg) as (c & Hs & R & _). pose proof (fits_get _ _ _ _ _ _ Hf Eg) as Hl.
  destruct R as (_ & Ec & Hr & HC). destruct (C27_observers _ l m HC Hl) as (O1 & O2 & O3 & O4).
  exists c. split; auto.
Qed.
(** When every object has been destroyed, everything the program obtained has been released. *)
Theorem C128_all_released (p : list (kstmt T)) A (m0 : mem T) : a_run dflt p [] = Runs A -> Forall (fun v => v = None) A ->
  exists s m, k_run moved dflt p [] m0 = Ok (s, m) /\
    (forall b, (b < length m0)%nat -> nth_error m b = nth_error m0 b) /\
    (forall b, (length m0 <= b < length m)%nat -> freed m b).
Proof.
  intros E Hn. destruct (C128_programs p A m0 E) as (s & m & Er & (L & R & _ & (_ & K) & _ & F)). exists s, m. split; auto. split.
  - intros b Hb. apply K; auto.
  - intros b Hb. destruct (F b Hb) as [H|(i & x & Hx & Ho)]; auto. exfalso.
    destruct (nth_error A i) as [y|] eqn:Ey.
    + specialize (R i x y Hx Ey). rewrite Forall_forall in Hn. rewrite (Hn y) in R by (eapply nth_error_In; eauto).
      destruct x as [[]|]; [destruct R|destruct Ho].
    + apply nth_error_None in Ey. apply nth_lt in Hx. lia.
Qed.

(** ** lockers *)
Lemma locked_step q s m s' m' a c : nth_error s a = Some (Some (true, c)) -> ends a q = false ->
  k_step moved dflt q s m = Ok (s', m') -> nth_error s' a = Some (Some (true, c)).
Proof.
  intros Ha He E. assert (Hlt : (a < length s)%nat) by (eapply nth_lt; eauto).
  assert (Ap : forall x, nth_error (s ++ [x]) a = Some (Some (true, c))) by (intros; rewrite nth_error_app1; auto).
  assert (Get : forall b ob m1, k_get (T := T) s b m = Ok (ob, m1) -> nth_error s b = Some (Some ob) /\ m1 = m).
  { unfold k_get, ret, fail. intros b ob m1. destruct (nth_error s b) as [[x|]|]; intros H; try discriminate. injection H as -> ->. auto. }
  destruct q as [lk k|lk src|lk src|b o|b src|b src|b]; cbn [k_step ends] in *; unfold bind in E.
  - destruct (k_new dflt k m) as [[c1 m1]|]; [|discriminate]. injection E as <- <-. auto.
  - destruct (k_get s src m) as [[ob m1]|]; [|discriminate]. destruct (cont_copy (snd ob) m1) as [[c1 m2]|]; [|discriminate]. injection E as <- <-. auto.
  - destruct (k_get s src m) as [[ob m1]|]; [|discriminate]. destruct (fst ob && negb lk); [discriminate|]. cbn [cont_move] in E.
    injection E as <- <-. apply Nat.eqb_neq in He. rewrite nth_error_app1 by (rewrite set_nth_length; auto). now rewrite nth_set_nth_other by auto.
  - destruct (k_get s b m) as [[ob m1]|] eqn:Eg; [|discriminate]. apply Get in Eg. destruct Eg as [Hb ->].
    destruct (Nat.eq_dec b a) as [->|Hne].
    + rewrite Ha in Hb. injection Hb as <-. cbn [fst snd] in E. destruct o as [x| |n x|n|i x]; cbn [k_offered] in E; try discriminate.
      cbn [k_op] in E. unfold bind in E. destruct (cont_set c i x m) as [[[] m2]|]; [|discriminate]. injection E as <- <-. now apply nth_set_nth_same.
    + destruct (k_offered (fst ob) o); [|discriminate]. destruct (k_op moved o (snd ob) m) as [[c1 m2]|]; [|discriminate].
      injection E as <- <-. now rewrite nth_set_nth_other by auto.
  - destruct (k_get s b m) as [[ob m1]|] eqn:Eg; [|discriminate]. apply Get in Eg. destruct Eg as [Hb ->].
    destruct (k_get s src m) as [[ob' m1]|]; [|discriminate]. destruct ob as [lkb cb]. cbn [fst snd] in E. destruct lkb; [discriminate|].
    destruct (cont_copy_assign _ _ _ _) as [[c1 m2]|]; [|discriminate]. injection E as <- <-.
    rewrite nth_set_nth_other; auto. intros ->. congruence.
  - destruct (k_get s b m) as [[ob m1]|] eqn:Eg; [|discriminate]. apply Get in Eg. destruct Eg as [Hb ->].
    destruct (k_get s src m) as [[ob' m1]|] eqn:Eg; [|discriminate]. apply Get in Eg. destruct Eg as [Hb' ->].
    destruct ob as [lkb cb], ob' as [lkb' cb']. cbn [fst snd] in E. destruct lkb, lkb'; try discriminate. cbn [orb] in E.
    destruct (cont_move_assign _ _ _ _) as [[c1 m2]|]; [|discriminate]. injection E as <- <-.
    rewrite !nth_set_nth_other; auto; intros ->; congruence.
  - destruct (k_get s b m) as [[ob m1]|]; [|discriminate]. destruct (cont_destroy (snd ob) m1) as [[[] m2]|]; [|discriminate].
    injection E as <- <-. apply Nat.eqb_neq in He. now rewrite nth_set_nth_other by auto.
Qed.
Lemma locked_run p : forall s m s' m' a c, nth_error s a = Some (Some (true, c)) -> forallb (fun q => negb (ends a q)) p = true ->
  k_run moved dflt p s m = Ok (s', m') -> nth_error s' a = Some (Some (true, c)).
Proof.
  induction p as [|q p IH]; intros s m s' m' a c Ha He E; cbn [k_run forallb] in *.
  - injection E as <- <-. auto.
  - apply andb_true_iff in He. destruct He as [He He']. apply negb_true_iff in He. unfold bind in E.
    destruct (k_step moved dflt q s m) as [[s1 m1]|] eqn:E1; [|discriminate]. exact (IH s1 m1 _ _ _ _ (locked_step _ _ _ _ _ _ _ Ha He E1) He' E).
Qed.
Lemma locked_writes p : forall A A' a l cap room, nth_error A a = Some (Some (true, Holds l cap room)) ->
  forallb (fun q => negb (ends a q)) p = true -> a_run dflt p A = Runs A' ->
  nth_error A' a = Some (Some (true, Holds (own_writes a p l) cap room)) /\ length (own_writes a p l) = length l.
Proof.
  induction p as [|q p IH]; intros A A' a l cap room Ha He E; cbn [a_run forallb] in *; destruct (fits A); try discriminate.
  - injection E as <-. auto.
  - apply andb_true_iff in He. destruct He as [He He']. apply negb_true_iff in He.
    destruct (a_step dflt q A) as [A1|] eqn:E1; [|discriminate].
    assert (Hlt : (a < length A)%nat) by (eapply nth_lt; eauto).
    assert (Same : nth_error A1 a = nth_error A a -> own_writes a (q :: p) l = own_writes a p l ->
      nth_error A' a = Some (Some (true, Holds (own_writes a (q :: p) l) cap room)) /\ length (own_writes a (q :: p) l) = length l).
    { intros HA Ho. rewrite Ho. apply (IH A1); auto. congruence. }
    assert (Ga : a_get A a = Some (true, Holds l cap room)) by (unfold a_get; now rewrite Ha).
    destruct q as [lk k|lk src|lk src|b o|b src|b src|b]; cbn [a_step ends] in *.
    + apply Same; auto. destruct (a_new dflt k); [|discriminate]. injection E1 as <-. now rewrite nth_error_app1.
    + apply Same; auto. destruct (a_get A src) as [[lk' []]|]; try discriminate. injection E1 as <-. now rewrite nth_error_app1.
    + apply Same; auto. destruct (a_get A src) as [[lk' v]|]; try discriminate. destruct (lk' && negb lk); [discriminate|]. injection E1 as <-.
      apply Nat.eqb_neq in He. rewrite nth_error_app1 by (rewrite set_nth_length; auto). now rewrite nth_set_nth_other by auto.
    + destruct (a_get A b) as [[lk v]|] eqn:Eb; [|discriminate]. destruct (a_offered lk o) eqn:Eo; [|discriminate].
      destruct (a_op o v) as [v'|] eqn:Ev; [|discriminate]. injection E1 as <-. destruct (Nat.eq_dec a b) as [<-|Hne].
      * rewrite Ga in Eb. injection Eb as <- <-. destruct o as [x| |n x|n|i x]; try discriminate. cbn [a_op] in Ev.
        destruct (Z.leb_spec 0 i) as [H0|]; [|discriminate]. destruct (Z.ltb_spec i (alen l)) as [H1|]; [|discriminate]. injection Ev as <-.
        cbn [own_writes]. rewrite Nat.eqb_refl. set (l1 := firstn (Z.to_nat i) l ++ x :: skipn (S (Z.to_nat i)) l) in *.
        assert (L1 : length l1 = length l).
        { unfold l1, alen in *. rewrite app_length, firstn_length. cbn [length]. rewrite skipn_length. lia. }
        rewrite <- L1. eapply (IH (set_nth a _ A)); eauto. now apply nth_set_nth_same.
      * apply Same; [now rewrite nth_set_nth_other by auto|]. cbn [own_writes]. destruct o; auto.
        destruct (Nat.eqb_spec a b); [lia|auto].
    + apply Same; auto. destruct (a_get A b) as [[[] va]|] eqn:Eb; try discriminate. destruct (a_get A src) as [[lk v]|]; [|discriminate].
      destruct (Nat.eqb b src); [now injection E1 as <-|]. destruct v; [|discriminate]. injection E1 as <-.
      rewrite nth_set_nth_other; auto. intros ->. congruence.
    + apply Same; auto. destruct (a_get A b) as [[[] va]|] eqn:Eb; try discriminate. destruct (a_get A src) as [[[] v]|] eqn:Es; try discriminate.
      destruct (Nat.eqb b src); [now injection E1 as <-|]. injection E1 as <-.
      rewrite !nth_set_nth_other; auto; intros ->; congruence.
    + apply Same; auto. destruct (a_get A b); [|discriminate]. injection E1 as <-. apply Nat.eqb_neq in He. now rewrite nth_set_nth_other by auto.
Qed.
Lemma run_app p1 : forall p2 s m s1 m1, k_run moved dflt p1 s m = Ok (s1, m1) -> k_run moved dflt (p1 ++ p2) s m = k_run moved dflt p2 s1 m1.
Proof.
  induction p1 as [|q p1 IH]; intros p2 s m s1 m1 E; cbn [k_run app] in *.
  - now injection E as -> ->.
  - unfold bind in *. destruct (k_step moved dflt q s m) as [[s2 m2]|]; [|discriminate]. auto.
Qed.
Lemma a_run_app p1 : forall p2 A A1, a_run dflt p1 A = Runs A1 -> a_run dflt (p1 ++ p2) A = a_run dflt p2 A1.
Proof.
  induction p1 as [|q p1 IH]; intros p2 A A1 E; cbn [a_run app] in *.
  - destruct (fits A) eqn:Hf; [|discriminate]. injection E as <-. reflexivity.
  - destruct (fits A); [|discriminate]. destruct (a_step dflt q A); [|discriminate]. auto.
Qed.
(** A ContainerLocker keeps its storage, its size and its capacity from one end of its life to
    the other, whatever the program does with it and with every other object, until it is
    destroyed or moved into another locker; its elements are those it started with, changed
    only by the element writes made through it. *)
Theorem C128_locked (p1 p2 : list (kstmt T)) A1 A2 (m0 : mem T) a l cap room :
  a_run dflt p1 [] = Runs A1 -> nth_error A1 a = Some (Some (true, Holds l cap room)) ->
  forallb (fun q => negb (ends a q)) p2 = true -> a_run dflt (p1 ++ p2) [] = Runs A2 ->
  exists c s1 m1 s2 m2,
    k_run moved dflt p1 [] m0 = Ok (s1, m1) /\ nth_error s1 a = Some (Some (true, c)) /\
    k_run moved dflt (p1 ++ p2) [] m0 = Ok (s2, m2) /\ nth_error s2 a = Some (Some (true, c)) /\
    contains m1 (mk_cont (c_data c) (c_size c) room) l /\
    contains m2 (mk_cont (c_data c) (c_size c) room) (own_writes a p2 l).
Proof.
  intros E1 HA He E2. destruct (C128_programs p1 A1 m0 E1) as (s1 & m1 & R1 & G1). destruct (C128_programs _ A2 m0 E2) as (s2 & m2 & R2 & G2).
  assert (Ga : a_get A1 a = Some (true, Holds l cap room)) by (unfold a_get; now rewrite HA).
  destruct (look _ _ _ _ _ _ _ G1 Ga) as (c & Hc & Rep & _). pose proof R2 as R2'. rewrite (run_app p1 p2 _ _ _ _ R1) in R2'.
  pose proof (locked_run p2 _ _ _ _ _ _ Hc He R2') as Hc2. rewrite (a_run_app p1 p2 _ _ E1) in E2.
  destruct (locked_writes p2 _ _ _ _ _ _ HA He E2) as (HA2 & _).
  exists c, s1, m1, s2, m2. split; auto. split; auto. split; auto. split; auto. split; [apply Rep|].
  destruct G2 as (_ & Rep2 & _). specialize (Rep2 a _ _ Hc2 HA2). apply Rep2.
Qed.
End Proofs.

Module Examples.
(** two plain containers and two lockers: growth, a copy of a container with spare capacity,
    a plain copy of a locker, a locker filled by moving a plain container in, assignments,
    element writes through a locker, moved-from objects reused and everything destroyed *)
Definition prog1 : list (kstmt Z) :=
  [SNew false (KList [1; 2]); SOp 0 (KAppend 3); SCopy true 0; SOp 1 (KWrite 0 7); SCopy false 1; SMove true 0].
Definition prog2 : list (kstmt Z) :=
  [SOp 3 (KWrite 2 9); SCopyAssign 0 1; SOp 0 (KAppend 4); SMoveAssign 2 0; SOp 0 (KResize 0 0); SOp 0 (KResize 8 5);
   SMove true 1; SOp 2 KPop; SDestroy 4].
Definition prog3 : list (kstmt Z) := [SDestroy 0; SDestroy 1; SDestroy 2; SDestroy 3].
Example allowed1 : a_run 0 prog1 [] = Runs
  [Some (false, Gone 3 5); Some (true, Holds [7; 2; 3] 5 3); Some (false, Holds [7; 2; 3] 5 3); Some (true, Holds [1; 2; 3] 5 5)].
Proof. vm_compute. reflexivity. Qed.
Example allowed2 : a_run 0 (prog1 ++ prog2) [] = Runs
  [Some (false, Holds [5; 5; 5; 5; 5; 5; 5; 5] 8 8); Some (true, Gone 3 5); Some (false, Holds [7; 2; 3] 5 5);
   Some (true, Holds [1; 2; 9] 5 5); None].
Proof. vm_compute. reflexivity. Qed.
Example locked3 : forallb (fun q => negb (ends 3 q)) prog2 = true /\ own_writes 3 prog2 [1; 2; 3] = [1; 2; 9].
Proof. vm_compute. auto. Qed.
Example allowed3 : a_run 0 (prog1 ++ prog2 ++ prog3) [] = Runs [None; None; None; None; None].
Proof. vm_compute. reflexivity. Qed.
(** appending to the copy of a container with spare capacity is not allowed, nor to a
    moved-from one, nor resizing a locker *)
Example not_allowed : a_run 0 (prog1 ++ [SOp 2 (KAppend 1)]) [] = Breaks /\ a_run 0 (prog1 ++ [SOp 0 (KAppend 1)]) [] = Breaks /\
  a_run 0 (prog1 ++ [SOp 1 (KReserve 9)]) [] = Breaks.
Proof. vm_compute. auto. Qed.
Example runs : k_run (fun _ => -1) 0 (prog1 ++ prog2) [] [Some [Some 99]] = Ok
  ([Some (false, mk_cont (Ptr 6 0) 8 8); Some (true, mk_cont Null 3 5); Some (false, mk_cont (Ptr 5 0) 3 5);
    Some (true, mk_cont (Ptr 2 0) 3 5); None],
   [Some [Some 99]; None; Some [Some 1; Some 2; Some 9; None; None]; None; None; Some [Some 7; Some 2; Some 3; None; None];
    Some [Some 5; Some 5; Some 5; Some 5; Some 5; Some 5; Some 5; Some 5]]).
Proof. vm_compute. reflexivity. Qed.
End Examples.

Print Assumptions C128_programs.
Print Assumptions C128_undefined.
Print Assumptions C128_observers.
Print Assumptions C128_all_released.
Print Assumptions C128_locked.
