(** * Code that neither allocates nor releases (proof infrastructure, partial correctness) *)
From Verif Require Import Mem Scalar MemSpec MemLemmas Lique.
Open Scope Z_scope.
Section Skel.
Context {T : Type} `{NT : Num T}.
Definition still {A} (c : M T A) : Prop := forall m a m', c m = Ok (a, m') -> skel m' = skel m.
Lemma bind_inv {A B} (c : M T A) (f : A -> M T B) m b m' : bind c f m = Ok (b, m') -> exists a m1, c m = Ok (a, m1) /\ f a m1 = Ok (b, m').
Proof. unfold bind. destruct (c m) as [[a m1]|]; [eauto|discriminate]. Qed.
Lemma still_ret A (a : A) : still (ret a). Proof. intros m a' m' [= -> ->]. reflexivity. Qed.
Lemma still_fail A k : still (@fail T A k). Proof. intros m a' m' H. discriminate H. Qed.
Lemma still_bind A B (c : M T A) (f : A -> M T B) : still c -> (forall a, still (f a)) -> still (bind c f).
Proof. intros Hc Hf m b m' H. apply bind_inv in H as (a & m1 & H1 & H2). rewrite (Hf a _ _ _ H2). eauto. Qed.
Lemma still_load p i : still (@load T p i).
Proof.
  intros m x m'. unfold load. destruct p; [discriminate|]. destruct (nth_error m b) as [[l|]|]; try discriminate.
  destruct (znth l (o + i)) as [[y|]|]; try discriminate. intros [= _ ->]. reflexivity.
Qed.
Lemma still_store p i x : still (@store T p i x).
Proof.
  intros m u m'. unfold store. destruct p as [|b o]; [discriminate|]. destruct (nth_error m b) as [[l|]|] eqn:E; try discriminate.
  destruct (znth l (o + i)); try discriminate. intros [= _ <-]. unfold skel. rewrite map_set_nth. cbn [option_map]. rewrite set_nth_length.
  apply set_nth_id. rewrite nth_error_map, E. reflexivity.
Qed.
Lemma still_mfold A lo hi (body : Z -> A -> M T A) a : (forall i a, still (body i a)) -> still (mfold lo hi body a).
Proof.
  intros H. unfold mfold. generalize (Z.to_nat (hi - lo)) as n. intros n. revert lo a.
  induction n as [|n IH]; intros lo a; [apply still_ret|]. cbn. apply still_bind; auto.
Qed.
Lemma still_mfor lo hi (body : Z -> M T unit) : (forall i, still (body i)) -> still (mfor lo hi body).
Proof. intros H. apply still_mfold. auto. Qed.
Lemma still_mlist A B (l : list A) (body : A -> B -> M T B) b : (forall x b, still (body x b)) -> still (mlist l body b).
Proof. intros H. revert b. induction l as [|x l IH]; intros b; [apply still_ret|]. cbn. apply still_bind; auto. Qed.
(** a loop that completes executed its body at every index, on a memory with the same skeleton *)
Lemma mfor_inv lo hi (body : Z -> M T unit) m m' i : (forall i, still (body i)) -> mfor lo hi body m = Ok (tt, m') -> lo <= i < hi ->
  exists m1 m2, skel m1 = skel m /\ body i m1 = Ok (tt, m2).
Proof.
  intros Hs. unfold mfor, mfold. assert (E : i < lo + Z.of_nat (Z.to_nat (hi - lo)) \/ hi <= i) by lia. intros H Hi.
  destruct E as [E|E]; [|lia]. revert H E. generalize (Z.to_nat (hi - lo)) as n. intros n. assert (Hlo : lo <= i) by lia. clear Hi. revert lo Hlo m.
  induction n as [|n IH]; intros lo Hlo m H Hi; [lia|]. cbn in H. apply bind_inv in H as ([] & m1 & H1 & H2).
  destruct (Z.eq_dec lo i) as [->|Hne]; [exists m, m1; auto|].
  destruct (IH (lo + 1) ltac:(lia) m1 H2 ltac:(lia)) as (m2 & m3 & E2 & E3). exists m2, m3. split; auto. rewrite E2. eapply Hs; exact H1.
Qed.
Lemma load_inv p i (x : T) m m' : load p i m = Ok (x, m') -> m' = m /\ elem m p i = Some (Some x).
Proof.
  unfold load, elem, cell. destruct p; [discriminate|]. destruct (nth_error m b) as [[l|]|]; try discriminate.
  destruct (znth l (o + i)) as [[y|]|]; try discriminate. intros [= -> ->]. auto.
Qed.
Lemma store_inv p i (x : T) m m' : store p i x m = Ok (tt, m') -> elem m p i <> None.
Proof.
  unfold store, elem, cell. destruct p; [discriminate|]. destruct (nth_error m b) as [[l|]|]; try discriminate.
  destruct (znth l (o + i)) as [y|]; discriminate.
Qed.
Lemma still_op_assign op dst i v : still (op_assign op dst i v).
Proof. unfold op_assign. destruct op; repeat (apply still_bind; [apply still_load|intros]); apply still_store. Qed.
Lemma still_assign_val dst n op v : still (assign_val dst n op v).
Proof. apply still_mfor. intros. apply still_op_assign. Qed.
Lemma still_assign_src dst n op src : still (assign_src dst n op src).
Proof. apply still_mfor. intros. apply still_bind; [apply still_load|]. intros. apply still_op_assign. Qed.
Lemma still_assign_val_src dst n op v src : still (assign_val_src dst n op v src).
Proof. apply still_mfor. intros. apply still_bind; [apply still_load|]. intros. apply still_store. Qed.
Lemma still_assign2 dst n op l r : still (assign_lhs_rhs dst n op l r).
Proof. apply still_mfor. intros. repeat (apply still_bind; [apply still_load|intros]). apply still_store. Qed.
Lemma still_apply dst n f : still (detail_apply dst n f).
Proof. apply still_mfor. intros. repeat (apply still_bind; [apply still_load|intros]). apply still_store. Qed.
Lemma still_apply_src dst n f src : still (detail_apply_src dst n f src).
Proof. apply still_mfor. intros. repeat (apply still_bind; [apply still_load|intros]). apply still_store. Qed.
End Skel.
