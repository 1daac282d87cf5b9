(** * Properties C67-C69: the three training loops *)
From Coq Require Import Reals FinFun.
From Verif Require Import Mem Scalar MemSpec MemLemmas Lique LiqueProofs2 Functions Optimizer Layer Net NetBack Schedule.
Open Scope Z_scope.

Lemma zrange_empty lo hi : hi <= lo -> zrange lo hi = [].
Proof. intros. unfold zrange. now replace (Z.to_nat (hi - lo)) with O by lia. Qed.
Lemma zrange_snoc lo hi : lo <= hi -> zrange lo (hi + 1) = zrange lo hi ++ [hi].
Proof.
  intros. unfold zrange. replace (Z.to_nat (hi + 1 - lo)) with (S (Z.to_nat (hi - lo))) by lia. rewrite seq_S, map_app. cbn.
  now replace (lo + Z.of_nat (Z.to_nat (hi - lo))) with hi by lia.
Qed.
Lemma zrange_cons lo hi : lo < hi -> zrange lo hi = lo :: zrange (lo + 1) hi.
Proof.
  intros. unfold zrange. replace (Z.to_nat (hi - lo)) with (S (Z.to_nat (hi - (lo + 1)))) by lia. cbn [seq map]. f_equal; [lia|].
  rewrite <- seq_shift, map_map. apply map_ext. intros. lia.
Qed.
Lemma zrange_length lo hi : lo <= hi -> Z.of_nat (length (zrange lo hi)) = hi - lo.
Proof. intros. unfold zrange. rewrite map_length, seq_length. lia. Qed.
Lemma in_zrange i lo hi : In i (zrange lo hi) <-> lo <= i < hi.
Proof.
  unfold zrange. rewrite in_map_iff. split.
  - intros (k & <- & Hk). apply in_seq in Hk. lia.
  - intros H. exists (Z.to_nat (i - lo)). split; [lia|]. apply in_seq. lia.
Qed.
Lemma zrange_app a b c : a <= b <= c -> zrange a b ++ zrange b c = zrange a c.
Proof.
  intros H. assert (G : forall k, 0 <= k -> b + k <= c -> zrange a b ++ zrange b (b + k) = zrange a (b + k)).
  { apply (natlike_ind (fun k => b + k <= c -> zrange a b ++ zrange b (b + k) = zrange a (b + k))).
    - intros _. rewrite Z.add_0_r. rewrite (zrange_empty b b), app_nil_r by lia. reflexivity.
    - intros k Hk IH Hc. unfold Z.succ. replace (b + (k + 1)) with (b + k + 1) by lia. rewrite !zrange_snoc by lia. rewrite app_assoc, IH by lia. reflexivity. }
  specialize (G (c - b) ltac:(lia)). replace (b + (c - b)) with c in G by lia. apply G. lia.
Qed.
Lemma zrange_NoDup lo hi : NoDup (zrange lo hi).
Proof.
  unfold zrange. apply FinFun.Injective_map_NoDup; [|apply seq_NoDup]. intros x y H. lia.
Qed.

Section Any.
Context {T : Type} `{NT : Num T}.
Context (addr : ptr -> Z) (t : trainer) (idata odata : list tensor).
Implicit Types (m : mem T) (st : net * opt T).
Notation run := (run addr t idata odata).
Lemma run_app es fs st m : run (es ++ fs) st m = bind (T := T) (run es st) (run fs) m.
Proof.
  revert st m. induction es as [|e es IH]; intros st m; [reflexivity|]. cbn [app Schedule.run]. unfold bind.
  destruct (run_event addr t idata odata e st m) as [[st' m']|]; [|reflexivity]. apply IH.
Qed.
Lemma mfold_snoc A lo hi (f : Z -> A -> M T A) a m : lo <= hi -> mfold lo (hi + 1) f a m = bind (T := T) (mfold lo hi f a) (f hi) m.
Proof.
  intros. unfold mfold. replace (Z.to_nat (hi + 1 - lo)) with (S (Z.to_nat (hi - lo))) by lia. rewrite mfold_n_snoc. unfold bind.
  now replace (lo + Z.of_nat (Z.to_nat (hi - lo))) with hi by lia.
Qed.
(** a loop over a local state [A] from which net and optimizer can be read *)
Lemma loop_run A (out : A -> net * opt T) (inv : Z -> A -> Prop) lo hi (f : Z -> A -> M T A) (h : Z -> list (event T)) :
  (forall i a m, lo <= i < hi -> inv i a -> bind (T := T) (f i a) (fun a' => ret (out a')) m = run (h i) (out a) m) ->
  (forall i a m a' m', lo <= i < hi -> inv i a -> f i a m = Ok (a', m') -> inv (i + 1) a') ->
  forall a m, lo <= hi -> inv lo a ->
  bind (T := T) (mfold lo hi f a) (fun a' => ret (out a')) m = run (flat_map h (zrange lo hi)) (out a) m /\
  forall a' m', mfold lo hi f a m = Ok (a', m') -> inv hi a'.
Proof.
  intros Hf Hi a m Hle Ha.
  assert (G : forall k, 0 <= k -> lo + k <= hi ->
    bind (T := T) (mfold lo (lo + k) f a) (fun a' => ret (out a')) m = run (flat_map h (zrange lo (lo + k))) (out a) m /\
    forall a' m', mfold lo (lo + k) f a m = Ok (a', m') -> inv (lo + k) a').
  { apply (natlike_ind (fun k => lo + k <= hi -> _ /\ _)).
    - intros _. rewrite Z.add_0_r. rewrite mfold_empty, zrange_empty by lia. split; [reflexivity|]. intros a' m' [= <- <-]. exact Ha.
    - intros k Hk IH Hc. destruct IH as [IH1 IH2]; [lia|]. unfold Z.succ. replace (lo + (k + 1)) with (lo + k + 1) by lia.
      rewrite zrange_snoc, flat_map_app, run_app by lia. cbn [flat_map]. rewrite app_nil_r. split.
      + unfold bind at 1. rewrite mfold_snoc by lia. unfold bind in IH1 |- *. rewrite <- IH1.
        destruct (mfold lo (lo + k) f a m) as [[a1 m1]|] eqn:E1; [|reflexivity]. cbn [ret].
        exact (Hf (lo + k) a1 m1 ltac:(lia) (IH2 _ _ eq_refl)).
      + intros a' m' E. rewrite mfold_snoc in E by lia. unfold bind in E. destruct (mfold lo (lo + k) f a m) as [[a1 m1]|] eqn:E1; [|discriminate].
        eapply Hi; [|eapply IH2; reflexivity|exact E]. lia. }
  specialize (G (hi - lo) ltac:(lia)). replace (lo + (hi - lo)) with hi in G by lia. apply G. lia.
Qed.
Lemma mlist_updating (N : net) (o : opt T) alpha m : tr_updating addr N o alpha m = mlist (T := T) N (fun L o => l_update addr L o alpha) o m.
Proof.
  unfold tr_updating, mfold, net_size. rewrite Z.sub_0_r, Nat2Z.id.
  assert (G : forall N2 N1 o m, N = N1 ++ N2 -> mfold_n (length N2) (Z.of_nat (length N1)) (fun i o => let* L := nth_of N i in l_update addr L o alpha) o m =
    mlist (T := T) N2 (fun L o => l_update addr L o alpha) o m).
  { induction N2 as [|L N2 IH]; intros N1 o1 m1 E; [reflexivity|]. cbn [length mfold_n mlist]. unfold bind at 1 2.
    assert (Z1 : nth_of (T := T) N (Z.of_nat (length N1)) = ret L).
    { unfold nth_of, znth. replace (0 <=? Z.of_nat (length N1)) with true by (symmetry; apply Z.leb_le; lia). rewrite Nat2Z.id, E, nth_error_app2, Nat.sub_diag by lia. reflexivity. }
    rewrite Z1. cbn [ret]. unfold bind. destruct (l_update addr L o1 alpha m1) as [[o2 m2]|]; [|reflexivity].
    replace (Z.of_nat (length N1) + 1) with (Z.of_nat (length (N1 ++ [L]))) by (rewrite app_length; cbn; lia).
    apply IH. now rewrite <- app_assoc. }
  exact (G N [] o m eq_refl).
Qed.
Lemma sample_run (N : net) o i m : run (present i) (N, o) m = bind (T := T) (tr_sample N t idata odata i ;;; tr_accumulating N) (fun N' => ret (N', o)) m.
Proof.
  unfold present, tr_sample, tr_feedforward. cbn [Schedule.run run_event]. unfold bind, ret, tr_accumulating.
  destruct (nth_of idata i m) as [[x m1]|] eqn:E1; [|reflexivity]. destruct (net_feedforward N x m1) as [[y m2]|]; [|reflexivity]. cbn [run_event]. unfold bind, ret.
  destruct (nth_of idata i m2) as [[x' m3]|]; [|reflexivity]. destruct (nth_of odata i m3) as [[y' m4]|]; [|reflexivity].
  destruct (tr_backprop N t x' y' m4) as [[[] m5]|]; [|reflexivity]. cbn [run_event]. unfold bind, ret. destruct (mmap l_accumulate N m5) as [[N' m6]|]; reflexivity.
Qed.
Lemma samples_run lo hi (N : net) o m : lo <= hi ->
  bind (T := T) (mfold lo hi (fun sample N => tr_sample N t idata odata sample ;;; tr_accumulating N) N) (fun N' => ret (N', o)) m =
  run (flat_map present (zrange lo hi)) (N, o) m.
Proof.
  intros Hle. apply (loop_run net (fun N => (N, o)) (fun _ _ => True) lo hi); auto.
  intros i a m1 Hi _. symmetry. apply sample_run.
Qed.
(** reset; samples lo..hi-1; update *)
Lemma round_run lo hi (N : net) o alpha m : lo <= hi -> alpha = div one (ofZ (hi - lo)) ->
  bind (T := T) (let* N := tr_reseting N in
    let* N := mfold lo hi (fun sample N => tr_sample N t idata odata sample ;;; tr_accumulating N) N in
    let* o := tr_updating addr N o alpha in ret (N, o)) ret m = run (round (zrange lo hi)) (N, o) m.
Proof.
  intros Hle ->. unfold round. rewrite zrange_length by lia. set (alpha := div one _). change (run (Reset :: ?es) ?st m) with (bind (T := T) (run_event addr t idata odata Reset st) (run es) m).
  cbn [run_event]. unfold bind at 1 2 6. unfold bind at 4. unfold tr_reseting. destruct (mmap l_reset N m) as [[N1 m1]|]; [|reflexivity]. cbn [ret].
  rewrite run_app. pose proof (samples_run lo hi N1 o m1 Hle) as Hs. unfold bind in *. match type of Hs with _ = ?r => match goal with |- _ = match ?r' with _ => _ end => change r' with r end end. rewrite <- Hs.
  match goal with |- context [mfold lo hi ?f N1 m1] => destruct (mfold lo hi f N1 m1) as [[N2 m2]|]; [|reflexivity] end. cbn [Schedule.run run_event ret]. unfold bind, ret. cbn [run_event]. unfold bind, ret. rewrite mlist_updating.
  match goal with |- context [mlist N2 ?f o m2] => destruct (mlist N2 f o m2) as [[o2 m3]|]; reflexivity end.
Qed.
Lemma flat_map_repeat {A B} (f : list B) : forall (l : list A), flat_map (fun _ => f) l = concat (repeat f (length l)).
Proof. induction l; cbn; [reflexivity|]. now rewrite IHl. Qed.
Lemma bind_ret {A} (c : M T A) m : bind (T := T) c ret m = c m.
Proof. unfold bind, ret. destruct (c m) as [[? ?]|]; reflexivity. Qed.
Lemma bind_ext {A B} (c : M T A) (f g : A -> M T B) m : (forall a m', f a m' = g a m') -> bind (T := T) c f m = bind (T := T) c g m.
Proof. intros H. unfold bind. destruct (c m) as [[? ?]|]; [apply H|reflexivity]. Qed.

(** ** C67 *)
(** batch(idata, odata, opt, E) does exactly what the schedule says - with the same result, and
    failing if and only if the schedule does *)
Theorem C67_batch_schedule (N : net) (o : opt T) E m : 0 <= E ->
  tr_batch addr N t idata odata o E m = run (batch_schedule (Z.of_nat (length idata)) E) (N, o) m.
Proof.
  intros HE. unfold tr_batch. cbv zeta. set (n := Z.of_nat (length idata)). rewrite <- bind_ret.
  destruct (loop_run (net * opt T) (fun st => st) (fun _ _ => True) 0 E (fun _ st =>
    let* N := tr_reseting (fst st) in
    let* N := mfold 0 n (fun sample N => tr_sample N t idata odata sample ;;; tr_accumulating N) N in
    let* o := tr_updating addr N (snd st) (div one (ofZ n)) in
    ret (N, o)) (fun _ => round (zrange 0 n))) with (a := (N, o)) (m := m) as [H _]; auto.
  - intros i [N1 o1] m1 _ _. cbn [fst snd]. apply round_run; [lia|]. now rewrite Z.sub_0_r.
  - unfold bind, ret in H |- *. rewrite H. unfold batch_schedule. rewrite flat_map_repeat. unfold zrange at 2. rewrite map_length, seq_length, Z.sub_0_r. reflexivity.
Qed.
Lemma presented_app (es fs : list (event T)) : presented (es ++ fs) = presented es ++ presented fs.
Proof. unfold presented. apply flat_map_app. Qed.
Lemma presented_round is : presented (T := T) (round is) = is.
Proof.
  unfold round. change (presented (Reset :: ?l)) with (presented l). rewrite presented_app. cbn. rewrite app_nil_r.
  induction is as [|i is IH]; [reflexivity|]. cbn. f_equal. exact IH.
Qed.
(** In each epoch every sample index is presented exactly once, in order. *)
Theorem C67_each_sample_once_per_epoch n E : 0 <= n -> 0 <= E ->
  presented (T := T) (batch_schedule n E) = concat (repeat (zrange 0 n) (Z.to_nat E)) /\
  NoDup (zrange 0 n) /\ forall i, In i (zrange 0 n) <-> 0 <= i < n.
Proof.
  intros Hn HE. split; [|split; [apply zrange_NoDup|intros; apply in_zrange]]. unfold batch_schedule.
  induction (Z.to_nat E) as [|k IH]; [reflexivity|]. cbn [repeat concat]. now rewrite presented_app, presented_round, IH.
Qed.

(** ** C68 *)
Theorem C68_mini_batch_schedule (N : net) (o : opt T) E b m : 0 <= E -> 0 < b -> Z.of_nat (length idata) < 2 ^ 64 ->
  tr_mini_batch addr N t idata odata o E b m = run (mini_batch_schedule (Z.of_nat (length idata)) b E) (N, o) m.
Proof.
  intros HE Hb Hn. unfold tr_mini_batch. cbv zeta. set (n := Z.of_nat (length idata)) in *. replace (b =? 0) with false by (symmetry; apply Z.eqb_neq; lia).
  assert (Hq : 0 <= n / b) by (apply Z.div_pos; lia). assert (Hqb : n / b * b <= n) by (pose proof (Z.mul_div_le n b Hb); lia).
  rewrite <- bind_ret.
  match goal with |- bind (mfold 0 E ?f (N, o)) ret m = _ => set (body := f) end.
  destruct (loop_run (net * opt T) (fun st => st) (fun _ _ => True) 0 E body (fun _ => flat_map (fun k => round (zrange (k * b) (k * b + b))) (zrange 0 (n / b)))) with (a := (N, o)) (m := m) as [H _]; auto.
  - intros i0 [N1 o1] m1 _ _. subst body. cbn beta. rewrite bind_ret. cbn [fst snd].
    set (out := fun a : net * opt T * Z * Z => let '(N, o, _, _) := a in (N, o)).
    transitivity (bind (T := T) (mfold 0 (n / b) (fun _ (st : net * opt T * Z * Z) =>
      let '(N, o, sample, sample_limit) := st in
      let sample_limit := u64 (sample_limit + b) in
      let* N := tr_reseting N in
      let* N := mfold sample sample_limit (fun sample N => tr_sample N t idata odata sample ;;; tr_accumulating N) N in
      let sample := Z.max sample sample_limit in
      let* o := tr_updating addr N o (div one (ofZ b)) in
      ret (N, o, sample, sample_limit)) (N1, o1, 0, 0)) (fun a => ret (out a)) m1).
    { apply bind_ext. intros [[[Na oa] sa] la] ma. reflexivity. }
    apply (loop_run _ out (fun k a => let '(_, _, s, l) := a in s = k * b /\ l = k * b)); auto.
    + intros k [[[Na oa] sa] la] ma Hk [-> ->]. cbn [out]. assert (Hk2 : k * b + b <= n) by nia. rewrite u64_small by nia.
      rewrite <- (round_run (k * b) (k * b + b) Na oa (div one (ofZ b)) ma); [|lia|f_equal; f_equal; lia].
      unfold bind, ret. destruct (tr_reseting Na ma) as [[N2 m2]|]; [|reflexivity]. match goal with |- context [mfold (k * b) (k * b + b) ?f N2 m2] => destruct (mfold (k * b) (k * b + b) f N2 m2) as [[N3 m3]|]; [|reflexivity] end.
      destruct (tr_updating addr N3 oa _ m3) as [[o4 m4]|]; reflexivity.
    + intros k [[[Na oa] sa] la] ma [[[Nb ob] sb] lb] mb Hk [-> ->] E1. assert (Hk2 : k * b + b <= n) by nia. rewrite u64_small in E1 by nia.
      unfold bind, ret in E1. destruct (tr_reseting Na ma) as [[N2 m2]|]; [|discriminate]. match type of E1 with context [mfold (k * b) (k * b + b) ?f N2 m2] => destruct (mfold (k * b) (k * b + b) f N2 m2) as [[N3 m3]|]; [|discriminate] end.
      destruct (tr_updating addr N3 oa _ m3) as [[o4 m4]|]; [|discriminate]. injection E1 as _ _ <- <- _. lia.
  - unfold bind, ret in H |- *. rewrite H. unfold mini_batch_schedule. rewrite flat_map_repeat. unfold zrange at 3. rewrite map_length, seq_length, Z.sub_0_r. reflexivity.
Qed.
(** Per epoch the samples 0 .. b*floor(n/b)-1, each once and in order, never an index beyond the data. *)
Theorem C68_partition n b E : 0 <= n -> 0 < b -> 0 <= E ->
  presented (T := T) (mini_batch_schedule n b E) = concat (repeat (zrange 0 (n / b * b)) (Z.to_nat E)) /\
  NoDup (zrange 0 (n / b * b)) /\ (forall i, In i (zrange 0 (n / b * b)) <-> 0 <= i < n / b * b) /\ n / b * b <= n < n / b * b + b.
Proof.
  intros Hn Hb HE. assert (Hq : 0 <= n / b) by (apply Z.div_pos; lia).
  split; [|split; [apply zrange_NoDup|split; [intros; apply in_zrange|]]].
  - unfold mini_batch_schedule. induction (Z.to_nat E) as [|k IH]; [reflexivity|]. cbn [repeat concat]. rewrite presented_app, IH. f_equal.
    clear IH. revert Hq. generalize (n / b). clear k. apply (natlike_ind (fun q => presented (T := T) (flat_map (fun k => round (zrange (k * b) (k * b + b))) (zrange 0 q)) = zrange 0 (q * b))).
    + reflexivity.
    + intros q Hq IH. unfold Z.succ. rewrite zrange_snoc, flat_map_app, presented_app, IH by lia. cbn [flat_map]. rewrite app_nil_r, presented_round.
      replace ((q + 1) * b) with (q * b + b) by lia. apply zrange_app. nia.
  - pose proof (Z.div_mod n b ltac:(lia)). pose proof (Z.mod_pos_bound n b Hb). nia.
Qed.

(** ** C69 *)
(** [g i]: the value of the generator's i-th call, after conversion to size_t *)
Theorem C69_stochastic_schedule (N : net) (o : opt T) S (g : Z -> Z) m : 0 <= S -> idata <> [] -> (forall i, 0 <= g i < 2 ^ 64) ->
  bind (T := T) (tr_stochastic addr N t idata odata o S g) (fun o' => ret (N, o')) m =
  run (stochastic_schedule (Z.of_nat (length idata)) S g) (N, o) m.
Proof.
  intros HS Hn Hg. unfold tr_stochastic. cbv zeta. set (n := Z.of_nat (length idata)).
  assert (Hn' : (n =? 0) = false). { apply Z.eqb_neq. unfold n. destruct idata; [congruence|]. cbn. lia. }
  rewrite Hn'. unfold stochastic_schedule.
  apply (loop_run (opt T) (fun o => (N, o)) (fun _ _ => True) 0 S); auto.
  intros i o1 m1 Hi _. rewrite u64_small by apply Hg. set (s := g i mod n).
  unfold step_on, tr_sample, tr_feedforward. cbn [Schedule.run run_event]. unfold bind, ret.
  destruct (nth_of idata s m1) as [[x m2]|]; [|reflexivity]. destruct (net_feedforward N x m2) as [[y m3]|]; [|reflexivity]. cbn [run_event]. unfold bind, ret.
  destruct (nth_of idata s m3) as [[x' m4]|]; [|reflexivity]. destruct (nth_of odata s m4) as [[y' m5]|]; [|reflexivity].
  destruct (tr_backprop N t x' y' m5) as [[[] m6]|]; [|reflexivity]. cbn [run_event]. unfold bind, ret. rewrite mlist_updating. match goal with |- context [mlist N ?f o1 m6] => destruct (mlist N f o1 m6) as [[o' m7]|]; reflexivity end.
Qed.
(** Exactly S samples, each a valid index. *)
Theorem C69_valid_samples n S (g : Z -> Z) : 0 < n -> 0 <= S ->
  presented (T := T) (stochastic_schedule n S g) = map (fun i => g i mod n) (zrange 0 S) /\
  Z.of_nat (length (presented (T := T) (stochastic_schedule n S g))) = S /\
  Forall (fun i => 0 <= i < n) (presented (T := T) (stochastic_schedule n S g)).
Proof.
  intros Hn HS. assert (E : presented (T := T) (stochastic_schedule n S g) = map (fun i => g i mod n) (zrange 0 S)).
  { unfold stochastic_schedule. induction (zrange 0 S) as [|i l IH]; [reflexivity|]. cbn [flat_map map]. rewrite presented_app, IH. reflexivity. }
  split; [exact E|]. rewrite E. split; [rewrite map_length, zrange_length; lia|]. apply Forall_map, Forall_forall. intros i _. apply Z.mod_pos_bound. exact Hn.
Qed.
(** An empty data set is undefined behaviour (division by zero) unless no step is asked for. *)
Theorem C69_empty_data_undefined (N : net) (o : opt T) S (g : Z -> Z) m : 0 < S -> idata = [] -> exists e, tr_stochastic addr N t idata odata o S g m = UB e.
Proof.
  intros HS ->. unfold tr_stochastic. cbn [length Z.of_nat]. change (0 =? 0) with true. cbv iota zeta.
  unfold mfold. replace (Z.to_nat (S - 0)) with (Datatypes.S (Z.to_nat (S - 1))) by lia. cbn. eauto.
Qed.
End Any.

Module Examples.
(** 7 samples in mini batches of 3, two epochs: sample 6 is never used; and the events of one round *)
Example C68_applies : presented (T := R) (mini_batch_schedule 7 3 2) = [0; 1; 2; 3; 4; 5; 0; 1; 2; 3; 4; 5].
Proof. reflexivity. Qed.
Example C67_applies : batch_schedule (T := R) 2 1 =
  [Reset; Feed 0; Backprop 0 0; Accumulate; Feed 1; Backprop 1 1; Accumulate; Update (div one (ofZ 2))].
Proof. reflexivity. Qed.
Example C69_applies : presented (T := R) (stochastic_schedule 5 4 (fun i => 7 * i + 3)) = [3; 0; 2; 4].
Proof. reflexivity. Qed.
End Examples.

Print Assumptions C67_batch_schedule.
Print Assumptions C67_each_sample_once_per_epoch.
Print Assumptions C68_mini_batch_schedule.
Print Assumptions C68_partition.
Print Assumptions C69_stochastic_schedule.
Print Assumptions C69_valid_samples.
Print Assumptions C69_empty_data_undefined.
