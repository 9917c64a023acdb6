(** Zero bounds, the conversion of Python task sets, and the comparison of the
    task-fair reader-writer bound with the mutex bound. *)
From Coq Require Import NArith ZArith List Bool Sorted Permutation Lia Arith.
From Verif Require Import ModelLocking ModelResources ModelRW SpecLocking SpecQueue SpecRW ProofLocking ProofSpin ProofQueue ProofLockingMono ProofRW ProofPF ProofLaminar ProofTF ProofRWRes.
Import ListNotations.
Open Scope N_scope.

(** * No blocking *)
Lemma bb_loop_excluded ex interval ps cont : (forall r, In r cont -> ex (rb_task r) = true) -> forall rem, bb_loop ex interval ps cont rem inter0 = inter0.
Proof.
  intros H rem. rewrite (bb_loop_greedy tkey), iadd_0_l. unfold sources. revert rem H. induction cont as [|r l IH]; intros rem H; [reflexivity|].
  cbn [map greedy]. unfold savail, slen; cbn [fst snd]. unfold avail. rewrite (H r (or_introl eq_refl)). rewrite N.min_0_l, N.sub_0_r, IH by (intros x Hx; apply H; right; exact Hx). reflexivity.
Qed.

Lemma sumN_zero {A} (f : A -> N) l : (forall a, In a l -> f a = 0) -> sumN (map f l) = 0.
Proof. induction l as [|a l IH]; intros H; [reflexivity|]. cbn [map sumN fold_right]. unfold sumN in IH. rewrite (H a (or_introl eq_refl)), IH by (intros x Hx; apply H; right; exact Hx). reflexivity. Qed.

Lemma pf_writer_zero info tsk nw nr q procs irq : (forall t x, In t info -> ti_id t <> ti_id tsk -> In x (ti_requests t) -> q_res x = q -> q_read x = true) ->
  pf_writer_fifo tsk (cluster_writes info) nw nr q procs irq = inter0.
Proof.
  intros H. rewrite pf_writer_eq.
  assert (Z : forall c, bound_blocking (wcont info c q) (ti_response tsk) (fst (pf_lim procs irq (ti_cluster tsk) nw nr c)) (nr + nw) (ti_id tsk) 0 = inter0).
  { intros c. unfold bound_blocking. apply bb_loop_excluded. intros r Hr. apply in_wcont in Hr. destruct Hr as [H1 [_ [H3 [H4 H5]]]].
    destruct (Nat.eqb_spec (ti_id (rb_task r)) (ti_id tsk)) as [E|E]; [reflexivity|]. rewrite (H _ _ H1 E H3 H4) in H5. discriminate. }
  rewrite !sumN_zero; [reflexivity| |]; intros c _; rewrite Z; reflexivity.
Qed.

Lemma pfg_zero info procs irq tsk r :
  (forall t x, In t info -> ti_id t <> ti_id tsk -> In x (ti_requests t) -> q_res x = r -> q_read x = true /\ numof false r (ti_requests tsk) = 0) ->
  pfg info procs irq tsk (merged (ti_requests tsk) r) = 0.
Proof.
  intros H. unfold pfg, pf_g. destruct (_ && _); [reflexivity|]. cbn [merged rw_reads rw_writes rw_res].
  unfold pf_blocking. cbn [fst snd]. rewrite pf_writer_zero by (intros t x H1 H2 H3 H4; apply (H t x H1 H2 H3 H4)). cbn [i_len i_count inter0].
  unfold pf_reader_all. cbv zeta. rewrite all_reads_nth. unfold bound_blocking_cluster.
  destruct (N.eqb_spec (numof false r (ti_requests tsk)) 0) as [E|E].
  - rewrite E. rewrite N.add_0_l, N.min_0_l. destruct (rcont info r); reflexivity.
  - rewrite bb_loop_excluded; [reflexivity|]. intros x Hx. apply in_rcont in Hx. destruct Hx as [H1 [H3 [H4 H5]]].
    destruct (Nat.eqb_spec (ti_id (rb_task x)) (ti_id tsk)) as [E'|E']; [reflexivity|]. destruct (H _ _ H1 E' H3 H4) as [_ C]. contradiction.
Qed.

Lemma numof_false r l : (forall q, In q l -> q_res q = r -> q_read q = true) -> numof false r l = 0.
Proof.
  intros H. destruct (N.eq_dec (numof false r l) 0) as [E|E]; [exact E|]. apply numof_pos in E. destruct E as [q [H1 H2]]. unfold is_for in H2. apply andb_prop in H2. destruct H2 as [H2 H3].
  apply Nat.eqb_eq in H2. rewrite (H q H1 H2) in H3. discriminate.
Qed.

Lemma pf_block_zero info procs irq tsk :
  (forall t x y, In t info -> ti_id t <> ti_id tsk -> In x (ti_requests t) -> In y (ti_requests tsk) -> q_res x = q_res y -> q_read x = true /\ q_read y = true) ->
  rw_block (pfg info procs irq) tsk = 0.
Proof.
  intros H. unfold rw_block. apply sumN_zero. intros r _.
  destruct (existsb (fun q => Nat.eqb (q_res q) r) (ti_requests tsk)) eqn:E.
  - apply existsb_exists in E. destruct E as [y [Hy Ey]]. apply Nat.eqb_eq in Ey. apply pfg_zero. intros t x H1 H2 H3 H4. split.
    + apply (H t x y H1 H2 H3 Hy). congruence.
    + apply numof_false. intros q Hq Eq. apply (H t x q H1 H2 H3 Hq). congruence.
  - unfold pfg, pf_g. cbn [merged rw_reads rw_writes]. assert (N1 : forall d, numof d r (ti_requests tsk) = 0).
    { intros d. apply numof_none. intros q Hq Eq. assert (C : existsb (fun q => Nat.eqb (q_res q) r) (ti_requests tsk) = true) by (apply existsb_exists; exists q; split; [exact Hq|apply Nat.eqb_eq; exact Eq]). congruence. }
    rewrite !N1. reflexivity.
Qed.

(** * The conversion of Python task sets *)
Definition convert (f : requirement -> list reqspec) (i : nat) (t : pytask) : taskinfo :=
  TI i (py_prio t) (py_period t) (py_deadline t) (py_response t) (py_cluster t) (py_cost t) (concat (map f (py_resmodel t))).

Lemma cpp_nth f ts i : nth_error (cpp_model f ts) i = option_map (convert f i) (nth_error ts i).
Proof.
  unfold cpp_model. assert (G : forall s i, nth_error (map (fun p : nat * pytask => let '(i, t) := p in TI i (py_prio t) (py_period t) (py_deadline t) (py_response t) (py_cluster t) (py_cost t) (concat (map f (py_resmodel t)))) (combine (seq s (length ts)) ts)) i = option_map (convert f (s + i)) (nth_error ts i)).
  { induction ts as [|t ts IH]; intros s j; cbn [length seq combine map]; [destruct j; reflexivity|]. destruct j as [|j]; cbn [nth_error option_map].
    - rewrite Nat.add_0_r. reflexivity.
    - rewrite IH. replace (S s + j)%nat with (s + S j)%nat by lia. reflexivity. }
  apply (G 0%nat).
Qed.
Lemma cpp_length f ts : length (cpp_model f ts) = length ts.
Proof. unfold cpp_model. rewrite map_length, combine_length, seq_length. lia. Qed.
Lemma cpp_in f ts x : In x (cpp_model f ts) -> exists i t, nth_error ts i = Some t /\ x = convert f i t.
Proof.
  intros H. apply In_nth_error in H. destruct H as [i H]. rewrite cpp_nth in H. destruct (nth_error ts i) as [t|] eqn:E; [|discriminate]. injection H as <-. exists i, t. auto.
Qed.
Lemma cpp_ids f ts : map ti_id (cpp_model f ts) = seq 0 (length (cpp_model f ts)).
Proof.
  rewrite cpp_length. unfold cpp_model. rewrite map_map. rewrite <- (combine_fst (seq 0 (length ts)) ts (seq_length _ _)) at 2. apply map_ext. intros [i t]. reflexivity.
Qed.

Lemma nodup_concat {A B} (key : A -> B) (f : requirement -> list A) (g : B -> nat) l : NoDup (map rr_id l) ->
  (forall r a, In r l -> In a (f r) -> g (key a) = rr_id r) -> (forall r, In r l -> NoDup (map key (f r))) -> NoDup (map key (concat (map f l))).
Proof.
  intros ND H1 H2. induction l as [|r l IH]; cbn [map concat]; [constructor|]. inversion ND as [|? ? N1 N2]; subst. rewrite map_app.
  assert (IH' : NoDup (map key (concat (map f l)))) by (apply IH; [exact N2| |]; intros; [apply H1|apply H2]; try (right; assumption); assumption).
  assert (DJ : forall b, In b (map key (f r)) -> ~ In b (map key (concat (map f l)))).
  { intros b Hb Hb'. apply in_map_iff in Hb. destruct Hb as [a [<- Ha]]. apply in_map_iff in Hb'. destruct Hb' as [a' [E Ha']]. apply in_concat in Ha'. destruct Ha' as [m [Hm Ha']].
    apply in_map_iff in Hm. destruct Hm as [r' [<- Hr']]. apply N1. rewrite <- (H1 r a (or_introl eq_refl) Ha), <- E, (H1 r' a' (or_intror Hr') Ha'). apply in_map. exact Hr'. }
  specialize (H2 r (or_introl eq_refl)). revert DJ H2. generalize (map key (f r)). intros m DJ H2. induction H2 as [|b m Hb Hm IHm]; cbn [app]; [exact IH'|].
  constructor; [|apply IHm; intros c Hc; apply DJ; right; exact Hc]. intros C. apply in_app_iff in C. destruct C as [C|C]; [contradiction|]. exact (DJ b (or_introl eq_refl) C).
Qed.

Lemma rw_requests_in r q : In q (rw_requests r) -> q_res q = rr_id r /\ ((q_read q = false /\ (0 < rr_writes r)%Z /\ q_num q = Z.to_N (rr_writes r) /\ q_len q = Z.to_N (rr_wlen r)) \/ (q_read q = true /\ (0 < rr_reads r)%Z /\ q_num q = Z.to_N (rr_reads r) /\ q_len q = Z.to_N (rr_rlen r))).
Proof.
  unfold rw_requests. intros H. apply in_app_iff in H. destruct (Z.ltb_spec 0 (rr_writes r)), (Z.ltb_spec 0 (rr_reads r)); cbn in H; destruct H as [[<-|[]]|[<-|[]]] || destruct H as [[<-|[]]|[]] || destruct H as [[]|[<-|[]]] || destruct H as [[]|[]]; cbn; auto 8.
Qed.
Lemma mutex_requests_in r q : In q (mutex_requests r) -> q_res q = rr_id r /\ (0 < max_requests r)%Z /\ q_num q = Z.to_N (max_requests r) /\ q_len q = Z.to_N (max_length r).
Proof. unfold mutex_requests. destruct (Z.ltb_spec 0 (max_requests r)); [|intros []]. intros [<-|[]]. cbn. auto. Qed.

Lemma rw_model_wf ts : (forall t, In t ts -> valid_py t) -> wf_rw (get_cpp_model_rw ts).
Proof.
  intros V. split; [apply cpp_ids|]. intros x Hx. apply cpp_in in Hx. destruct Hx as [i [t [Ht ->]]]. apply nth_error_In in Ht. destruct (V t Ht) as [V1 [V2 V3]].
  split; [exact V1|]. cbn [convert ti_requests]. apply (nodup_concat _ rw_requests fst); [exact V2| |].
  - intros r a _ Ha. apply rw_requests_in in Ha. apply Ha.
  - intros r _. unfold rw_requests. destruct (Z.ltb_spec 0 (rr_writes r)), (Z.ltb_spec 0 (rr_reads r)); cbn; repeat constructor; cbn; intuition discriminate.
Qed.

Lemma mutex_model_wf ts : (forall t, In t ts -> valid_py t) -> wf_info (get_cpp_model ts).
Proof.
  intros V. split; [apply cpp_ids|]. intros x Hx. apply cpp_in in Hx. destruct Hx as [i [t [Ht ->]]]. apply nth_error_In in Ht. destruct (V t Ht) as [V1 [V2 V3]].
  split; [exact V1|]. cbn [convert ti_requests]. apply (nodup_concat _ mutex_requests (fun n => n)); [exact V2| |].
  - intros r a _ Ha. apply mutex_requests_in in Ha. apply Ha.
  - intros r _. unfold mutex_requests. destruct (0 <? max_requests r)%Z; cbn; repeat constructor; cbn; intuition.
Qed.

Definition nreq (l : list reqspec) (res : nat) : N := fold_right (fun q s => if Nat.eqb (q_res q) res then q_num q + s else s) 0 l.
Lemma nreq_app l l' res : nreq (l ++ l') res = nreq l res + nreq l' res.
Proof. unfold nreq. induction l as [|q l IH]; [reflexivity|]. cbn [app fold_right]. rewrite IH. destruct (Nat.eqb (q_res q) res); lia. Qed.
Lemma nreq_none l res : (forall q, In q l -> q_res q <> res) -> nreq l res = 0.
Proof. unfold nreq. induction l as [|q l IH]; intros H; [reflexivity|]. cbn [fold_right]. destruct (Nat.eqb_spec (q_res q) res) as [E|E]; [destruct (H q (or_introl eq_refl) E)|]. apply IH. intros x Hx. apply H. right. exact Hx. Qed.

Lemma concat_rw_none l res : (forall r, In r l -> rr_id r <> res) -> forall q, In q (concat (map rw_requests l)) -> q_res q <> res.
Proof.
  intros H q Hq. apply in_concat in Hq. destruct Hq as [m [Hm Hq]]. apply in_map_iff in Hm. destruct Hm as [r [<- Hr]]. apply rw_requests_in in Hq. destruct Hq as [-> _]. apply H. exact Hr.
Qed.

Lemma numof_app d r l l' : numof d r (l ++ l') = numof d r l + numof d r l'.
Proof.
  revert l. induction l' as [|q l' IH] using rev_ind; intros l; [rewrite app_nil_r; unfold numof at 3; cbn; lia|]. rewrite app_assoc, !numof_snoc, IH. destruct (is_for d r q); lia.
Qed.

Lemma entry_split (l : list requirement) e : In e l -> NoDup (map rr_id l) -> exists a b, l = a ++ e :: b /\ (forall r, In r a -> rr_id r <> rr_id e) /\ (forall r, In r b -> rr_id r <> rr_id e).
Proof.
  intros H ND. apply in_split in H. destruct H as [a [b ->]]. exists a, b. split; [reflexivity|]. rewrite map_app in ND. cbn [map] in ND. apply NoDup_remove_2 in ND.
  split; intros r Hr E; apply ND; apply in_app_iff; [left|right]; rewrite <- E; apply in_map; exact Hr.
Qed.

Lemma model_counts l e : In e l -> NoDup (map rr_id l) -> (0 <= rr_writes e)%Z -> (0 <= rr_reads e)%Z ->
  let q := concat (map rw_requests l) in nreq q (rr_id e) = Z.to_N (max_requests e) /\ numof true (rr_id e) q + numof false (rr_id e) q = Z.to_N (max_requests e).
Proof.
  intros H ND H1 H2. destruct (entry_split l e H ND) as [a [b [-> [Ha Hb]]]]. cbv zeta. rewrite map_app, concat_app. cbn [map concat]. rewrite !nreq_app, !numof_app.
  rewrite (nreq_none _ _ (concat_rw_none a (rr_id e) Ha)), (nreq_none _ _ (concat_rw_none b (rr_id e) Hb)). rewrite !(numof_none _ _ _ (concat_rw_none a (rr_id e) Ha)), !(numof_none _ _ _ (concat_rw_none b (rr_id e) Hb)).
  unfold max_requests. rewrite Z2N.inj_add by assumption. unfold rw_requests.
  destruct (Z.ltb_spec 0 (rr_writes e)), (Z.ltb_spec 0 (rr_reads e)); cbn [app nreq fold_right numof fold_left q_res q_num q_read]; unfold is_for; cbn [q_res q_read]; rewrite ?Nat.eqb_refl; cbn; lia.
Qed.

Lemma in_model_entry l q : In q (concat (map rw_requests l)) -> exists e, In e l /\ In q (rw_requests e).
Proof. intros H. apply in_concat in H. destruct H as [m [Hm Hq]]. apply in_map_iff in Hm. destruct Hm as [r [<- Hr]]. exists r. auto. Qed.

Lemma model_mutex l e q : In e l -> valid_req e -> In q (rw_requests e) -> exists x, In x (concat (map mutex_requests l)) /\ q_res x = rr_id e /\ q_num x = Z.to_N (max_requests e) /\ q_len x = Z.to_N (max_length e) /\ q_len q <= q_len x.
Proof.
  intros H [V1 [V2 [V3 V4]]] Hq. apply rw_requests_in in Hq. destruct Hq as [_ Hq].
  assert (P : (0 < max_requests e)%Z) by (unfold max_requests; destruct Hq as [[_ [? _]]|[_ [? _]]]; lia).
  exists (Req (rr_id e) (Z.to_N (max_requests e)) (Z.to_N (max_length e)) false). cbn [q_res q_num q_len]. split; [|repeat split].
  - apply in_concat. exists (mutex_requests e). split; [apply in_map; exact H|]. unfold mutex_requests. apply Z.ltb_lt in P. rewrite P. left. reflexivity.
  - unfold max_length. destruct Hq as [[_ [_ [_ ->]]]|[_ [_ [_ ->]]]]; lia.
Qed.

Lemma convert_cover i t : valid_py t -> mutex_cover (convert rw_requests i t) (convert mutex_requests i t).
Proof.
  intros [V1 [V2 V3]]. unfold mutex_cover. cbn [convert ti_id ti_cluster ti_period ti_response ti_requests]. do 4 (split; [reflexivity|]). intros q Hq.
  destruct (in_model_entry _ _ Hq) as [e [He Hqe]]. destruct (model_mutex (py_resmodel t) e q He (V3 e He) Hqe) as [x [X1 [X2 [X3 [X4 X5]]]]]. exists x. split; [exact X1|].
  assert (R : q_res q = rr_id e) by (apply rw_requests_in in Hqe; apply Hqe). split; [congruence|]. split; [exact X5|]. rewrite R, X3.
  unfold num_requests; cbn [ti_requests]. destruct (V3 e He) as [W1 [W2 _]]. rewrite <- (proj1 (model_counts (py_resmodel t) e He V2 W1 W2)). apply N.le_refl.
Qed.

Lemma models_cover ts : (forall t, In t ts -> valid_py t) -> Forall2 mutex_cover (get_cpp_model_rw ts) (get_cpp_model ts).
Proof.
  intros V. unfold get_cpp_model_rw, get_cpp_model, cpp_model. generalize (seq 0 (length ts)). induction ts as [|t ts IH]; intros [|i s]; cbn [combine map]; constructor.
  - apply (convert_cover i t). apply V. left. reflexivity.
  - apply IH. intros u Hu. apply V. right. exact Hu.
Qed.

(** * Task-fair bounds never exceed mutex bounds *)
Lemma sumN_le {A} (f g : A -> N) l : (forall a, In a l -> f a <= g a) -> sumN (map f l) <= sumN (map g l).
Proof. induction l as [|a l IH]; intros H; [apply N.le_refl|]. cbn [map sumN fold_right]. apply N.add_le_mono; [apply H; left; reflexivity|]. apply IH. intros x Hx. apply H. right. exact Hx. Qed.

Lemma one_resource (f : reqspec -> N) q n : sumN (map (fun r => if Nat.eqb (q_res q) r then f q else 0) (seq 0 n)) <= f q.
Proof.
  assert (G : forall s, sumN (map (fun r => if Nat.eqb (q_res q) r then f q else 0) (seq s n)) <= if Nat.ltb (q_res q) s then 0 else f q).
  { induction n as [|n IH]; intros s; cbn [seq map sumN fold_right]; [lia|]. specialize (IH (S s)). unfold sumN in IH.
    destruct (Nat.eqb_spec (q_res q) s), (Nat.ltb_spec (q_res q) s), (Nat.ltb_spec (q_res q) (S s)); lia. }
  apply (G 0%nat).
Qed.

Lemma by_resource (s : nat -> N) (f : reqspec -> N) n l : (forall r, s r <= sumN (map (fun q => if Nat.eqb (q_res q) r then f q else 0) l)) -> sumN (map s (seq 0 n)) <= sumN (map f l).
Proof.
  intros H. apply N.le_trans with (sumN (map (fun r => sumN (map (fun q => if Nat.eqb (q_res q) r then f q else 0) l)) (seq 0 n))); [apply sumN_le; intros r _; apply H|]. clear H s.
  induction l as [|q l IH]; cbn [map]; [rewrite sumN_zero by reflexivity; lia|].
  assert (E : forall m, sumN (map (fun r => sumN ((if Nat.eqb (q_res q) r then f q else 0) :: map (fun q => if Nat.eqb (q_res q) r then f q else 0) l)) m) =
    sumN (map (fun r => if Nat.eqb (q_res q) r then f q else 0) m) + sumN (map (fun r => sumN (map (fun q => if Nat.eqb (q_res q) r then f q else 0) l)) m)).
  { induction m as [|r m IHm]; [reflexivity|]. cbn [map sumN fold_right] in *. unfold sumN in *. rewrite IHm. lia. }
  rewrite E. cbn [sumN fold_right]. pose proof (one_resource f q n) as O. unfold sumN in *. lia.
Qed.

Lemma sumN_in {A} (f : A -> N) l a : In a l -> f a <= sumN (map f l).
Proof. induction l as [|b l IH]; intros H; [destruct H|]. cbn [map sumN fold_right]. destruct H as [->|H]; [lia|]. specialize (IH H). unfold sumN in IH. lia. Qed.

Section Compare.
Variables (ts : list pytask) (procs : N) (irq : option nat).
Hypothesis V : forall t, In t ts -> valid_py t.
Notation info := (get_cpp_model_rw ts).
Notation mtx := (get_cpp_model ts).

Lemma np_fifo_same i t ws res issued irq' : np_fifo_per_resource (convert rw_requests i t) ws procs res issued irq' = np_fifo_per_resource (convert mutex_requests i t) ws procs res issued irq'.
Proof. reflexivity. Qed.

Lemma model_resource l r : NoDup (map rr_id l) -> (forall e, In e l -> valid_req e) -> let q := concat (map rw_requests l) in
  (numof true r q =? 0) && (numof false r q =? 0) = false -> exists x, In x (concat (map mutex_requests l)) /\ q_res x = r /\ q_num x = numof true r q + numof false r q /\ N.max (lastlen false r q) (lastlen true r q) <= q_len x.
Proof.
  intros ND VR q H.
  assert (X : exists d, numof d r q <> 0) by (destruct (N.eqb_spec (numof true r q) 0); [exists false; destruct (N.eqb_spec (numof false r q) 0); [discriminate|assumption]|exists true; assumption]).
  destruct X as [d X]. apply numof_pos in X. destruct X as [y [Hy Iy]]. unfold is_for in Iy. apply andb_prop in Iy. destruct Iy as [Iy _]. apply Nat.eqb_eq in Iy.
  destruct (in_model_entry _ _ Hy) as [e [He Hye]]. destruct (model_mutex l e y He (VR e He) Hye) as [x [X1 [X2 [X3 [X4 X5]]]]]. exists x. split; [exact X1|].
  assert (R : r = rr_id e) by (rewrite <- Iy; apply rw_requests_in in Hye; apply Hye). split; [congruence|].
  destruct (VR e He) as [W1 [W2 [W3 W4]]]. split; [rewrite X3, R; symmetry; apply (model_counts l e He ND W1 W2)|].
  assert (LL : forall d, lastlen d r q <= q_len x).
  { intros d'. destruct (N.eq_dec (lastlen d' r q) 0) as [E|E]; [lia|].
    assert (EX : exists z, In z q /\ is_for d' r z = true /\ lastlen d' r q = q_len z).
    { clear - E. revert E. generalize q. intros m. induction m as [|z m IH] using rev_ind; intros E; [destruct (E eq_refl)|]. rewrite lastlen_snoc in *. destruct (is_for d' r z) eqn:I.
      - exists z. split; [apply in_app_iff; right; left; reflexivity|]. auto.
      - destruct (IH E) as [z' [A [B C]]]. exists z'. split; [apply in_app_iff; left; exact A|]. auto. }
    destruct EX as [z [Hz [Iz Ez]]]. unfold is_for in Iz. apply andb_prop in Iz. destruct Iz as [Iz _]. apply Nat.eqb_eq in Iz. destruct (in_model_entry _ _ Hz) as [e' [He' Hze]].
    assert (R' : rr_id e' = rr_id e) by (apply rw_requests_in in Hze; destruct Hze as [Q _]; congruence).
    assert (e' = e) by (apply (nodup_key rr_id l); assumption). subst e'. destruct (model_mutex l e z He (VR e He) Hze) as [x' [_ [_ [_ [X4' X5']]]]]. rewrite Ez, X4, <- X4'. exact X5'. }
  pose proof (LL false). pose proof (LL true). lia.
Qed.

Lemma block_cmp i t : nth_error ts i = Some t -> rw_block (tfg info mtx procs irq) (convert rw_requests i t) <= remote_len mtx procs irq (convert mutex_requests i t).
Proof.
  intros H. destruct (V t (nth_error_In _ _ H)) as [V1 [V2 V3]]. unfold rw_block, remote_len. apply by_resource. intros r. unfold tfg, tf_g. cbn [merged rw_reads rw_writes rw_res].
  destruct (_ && _) eqn:E; [apply N.le_0_l|]. destruct (model_resource (py_resmodel t) r V2 V3 E) as [x [X1 [X2 [X3 _]]]]. etransitivity; [apply N.le_min_r|].
  rewrite np_fifo_same. cbn [convert ti_requests] in X3 |- *. rewrite <- X3.
  etransitivity; [|apply (sumN_in (fun q => if Nat.eqb (q_res q) r then i_len (np_fifo_per_resource (convert mutex_requests i t) (cluster_contention mtx) procs (q_res q) (q_num q) irq) else 0) _ x); exact X1].
  cbv beta. rewrite X2, Nat.eqb_refl. apply N.le_refl.
Qed.

Lemma span_cmp i t : nth_error ts i = Some t -> rw_span (tfh info mtx procs irq) (convert rw_requests i t) <= span_len mtx procs irq (convert mutex_requests i t).
Proof.
  intros H. destruct (V t (nth_error_In _ _ H)) as [V1 [V2 V3]]. unfold rw_span, span_len.
  assert (G : forall l, (forall r, In r l -> tfh info mtx procs irq (convert rw_requests i t) (merged (ti_requests (convert rw_requests i t)) r) <= maxN (map (fun q => i_len (span1 mtx procs irq (convert mutex_requests i t) q)) (ti_requests (convert mutex_requests i t)))) ->
     maxN (map (fun r => tfh info mtx procs irq (convert rw_requests i t) (merged (ti_requests (convert rw_requests i t)) r)) l) <= maxN (map (fun q => i_len (span1 mtx procs irq (convert mutex_requests i t) q)) (ti_requests (convert mutex_requests i t)))).
  { induction l as [|r l IH]; intros HL; cbn [map maxN fold_right]; [apply N.le_0_l|]. apply N.max_lub; [apply HL; left; reflexivity|]. apply IH. intros x Hx. apply HL. right. exact Hx. }
  apply G. intros r _. unfold tfh, tf_h. cbn [merged rw_reads rw_writes rw_res rw_wlen rw_rlen]. destruct (_ && _) eqn:E; [apply N.le_0_l|].
  destruct (model_resource (py_resmodel t) r V2 V3 E) as [x [X1 [X2 [X3 X4]]]]. etransitivity; [apply N.le_min_r|]. rewrite np_fifo_same.
  etransitivity; [|apply maxN_in; apply in_map; exact X1]. unfold span1, iadd. cbn [i_len]. rewrite X2. cbn [convert ti_requests] in *. apply N.add_le_mono; [|exact X4].
  destruct (N.eqb_spec (q_num x) 1) as [->|E1]; cbn [negb]; [apply N.le_refl|]. apply np_fifo_irq.
Qed.

Lemma arrival_cmp i t : nth_error ts i = Some t -> rw_arrival info (tfh info mtx procs irq) (convert rw_requests i t) <= arrival_len mtx procs irq (convert mutex_requests i t).
Proof.
  intros H. unfold rw_arrival, arrival_len. apply maxN_map_le_ex. intros x Hx. apply filter_In in Hx. destruct Hx as [Hx Ex]. apply cpp_in in Hx. destruct Hx as [j [u [Hu ->]]].
  exists (convert mutex_requests j u). split; [|apply span_cmp; exact Hu]. apply filter_In. split; [|exact Ex]. apply (nth_error_In _ j). unfold get_cpp_model. rewrite cpp_nth, Hu. reflexivity.
Qed.

Theorem not_worse i t : nth_error ts i = Some t -> exists b m, nth_error (task_fair_rw_bounds info mtx procs irq) i = Some b /\ nth_error (task_fair_mutex_bounds mtx procs irq) i = Some m /\
  i_len (bb_block b) <= i_len (bb_block m) /\ i_len (bb_span b) <= i_len (bb_span m) /\ i_len (bb_arrival b) <= i_len (bb_arrival m) /\ i_len (bb_block b) - i_len (bb_arrival b) <= i_len (bb_block m) - i_len (bb_arrival m).
Proof.
  intros H. assert (H1 : nth_error info i = Some (convert rw_requests i t)) by (unfold get_cpp_model_rw; rewrite cpp_nth, H; reflexivity).
  assert (H2 : nth_error mtx i = Some (convert mutex_requests i t)) by (unfold get_cpp_model; rewrite cpp_nth, H; reflexivity).
  destruct (tf_result info mtx procs irq i _ H1) as [b [B1 [B2 [B3 B4]]]]. destruct (omlp_result mtx procs irq i _ H2) as [m [M1 [M2 [M3 [M4 M5]]]]].
  exists b, m. split; [exact B1|]. split; [exact M1|]. rewrite B2, B3, B4, M3, M4, M5. pose proof (block_cmp i t H). pose proof (span_cmp i t H). pose proof (arrival_cmp i t H). lia.
Qed.
End Compare.
