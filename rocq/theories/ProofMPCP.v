(** Safety of the classic bounds for the MPCP. *)
From Coq Require Import NArith ZArith List Bool Sorted Permutation Lia Arith.
From Verif Require Import ModelLocking ModelFMLPPlus ModelMPCP SpecLocking SpecQueue SpecDPCP SpecFMLPPlus SpecMPCP ProofLocking ProofSpinCount ProofQueue ProofLPUnordered ProofSpin ProofBlame ProofFMLPPlus.
Import ListNotations.
Open Scope N_scope.

(** * The values of the code *)
Lemma push_at_perm {A} (n : nat) (x : A) v : Permutation (concat (push_at n x v)) (x :: concat v).
Proof.
  revert v. induction n as [|n IH]; intros [|a v]; cbn [push_at concat app]; try reflexivity.
  - rewrite <- app_assoc. cbn [app]. symmetry. apply Permutation_middle.
  - rewrite IH. reflexivity.
  - rewrite IH. symmetry. apply Permutation_middle.
Qed.

Lemma clusters_perm info : Permutation (concat (split_by_cluster info 0)) info.
Proof.
  unfold split_by_cluster. cbn [repeat]. assert (G : forall l v, Permutation (concat (fold_left (fun clusters t => push_at (ti_cluster t) t clusters) l v)) (concat v ++ l)).
  { induction l as [|t r IH]; intros v; cbn [fold_left]; [rewrite app_nil_r; reflexivity|]. rewrite IH, push_at_perm. cbn [app]. apply Permutation_middle. }
  exact (G info []).
Qed.

Lemma combine_map {A B} (f : A -> B) l : combine l (map f l) = map (fun a => (a, f a)) l.
Proof. induction l as [|a r IH]; [reflexivity|]. cbn [map combine]. rewrite IH. reflexivity. Qed.

Definition times_of (info : list taskinfo) (ceilings : list (list N)) (t : taskinfo) : list N := task_response_times (in_cluster (ti_cluster t) info) ceilings t.
Definition both (info : list taskinfo) : list (list (taskinfo * list N)) :=
  let clusters := split_by_cluster info 0 in
  map (fun cr => combine (fst cr) (snd cr)) (combine clusters (determine_gcs_response_times clusters (get_mpcp_ceilings info))).

Lemma concat_both info : concat (both info) = map (fun t => (t, times_of info (get_mpcp_ceilings info) t)) (concat (split_by_cluster info 0)).
Proof.
  unfold both. cbv zeta. unfold determine_gcs_response_times. rewrite combine_map, map_map. cbn [fst snd]. rewrite concat_map. f_equal. apply map_ext_in. intros c Hc.
  unfold cluster_response_times. rewrite combine_map. apply map_ext_in. intros t Ht. unfold times_of. f_equal. f_equal.
  apply (In_nth _ _ []) in Hc. destruct Hc as [n [_ <-]]. rewrite split_by_cluster_nth in *. unfold in_cluster in Ht. apply filter_In in Ht. destruct Ht as [_ Ht]. apply Nat.eqb_eq in Ht. rewrite Ht. reflexivity.
Qed.

Lemma rtf_value res I t (f : reqspec -> N) m q : NoDup (map q_res (ti_requests t)) -> In q (ti_requests t) -> q_res q = res ->
  response_time_for res I t (map f (ti_requests t)) m = if m then (divide_with_ceil I (ti_period t) + 1) * f q * q_num q else f q.
Proof.
  unfold response_time_for. rewrite combine_map. induction (ti_requests t) as [|x r IH]; intros ND H E; [destruct H|]. cbn [map response_time_loop]. inversion ND as [|y z N1 N2]; subst y z. destruct H as [->|H].
  - rewrite E, Nat.eqb_refl. reflexivity.
  - destruct (Nat.eqb_spec (q_res x) res) as [E'|E']; [|apply IH; assumption]. exfalso. apply N1. rewrite E', <- E. apply in_map. exact H.
Qed.

Lemma rtf_mono res t resp I J : 0 < ti_period t -> I <= J -> response_time_for res I t resp true <= response_time_for res J t resp true.
Proof.
  intros P L. unfold response_time_for. induction (combine (ti_requests t) resp) as [|[q w] r IH]; cbn [response_time_loop]; [lia|]. destruct (Nat.eqb (q_res q) res); [|exact IH].
  pose proof (ceil_mono I J (ti_period t) P L). apply N.mul_le_mono_r, N.mul_le_mono_r. lia.
Qed.
Lemma rtf_once res t resp I J : response_time_for res I t resp false = response_time_for res J t resp false.
Proof. unfold response_time_for. induction (combine (ti_requests t) resp) as [|[q w] r IH]; cbn [response_time_loop]; [reflexivity|]. destruct (Nat.eqb (q_res q) res); [reflexivity|exact IH]. Qed.

Definition others (tsk : taskinfo) (p : taskinfo * list N) : bool := negb (Nat.eqb (ti_id (fst p)) (ti_id tsk)).
Definition higher (tsk : taskinfo) (p : taskinfo * list N) : bool := others tsk p && (ti_prio (fst p) <? ti_prio tsk).
Definition lower (tsk : taskinfo) (p : taskinfo * list N) : bool := others tsk p && negb (ti_prio (fst p) <? ti_prio tsk).

Lemma cluster_fold res I tsk l : forall st, mpcp_cluster_blocking res I tsk st l =
  (fst st + nsumN (fun p => response_time_for res I (fst p) (snd p) true) (filter (higher tsk) l),
   fold_left N.max (map (fun p => response_time_for res I (fst p) (snd p) false) (filter (lower tsk) l)) (snd st)).
Proof.
  unfold mpcp_cluster_blocking. induction l as [|[t w] r IH]; intros st; cbn [fold_left filter map]; [cbn; destruct st; f_equal; cbn; lia|]. rewrite IH. unfold higher, lower, others. cbn [fst snd].
  destruct (negb (Nat.eqb (ti_id t) (ti_id tsk))) eqn:E1; cbn [andb]; [|reflexivity]. destruct (ti_prio t <? ti_prio tsk) eqn:E2; cbn [negb fst snd map fold_left]; [|reflexivity].
  f_equal. set (g := filter _ r). change (nsumN (fun p => response_time_for res I (fst p) (snd p) true) ((t, w) :: g)) with (response_time_for res I t w true + nsumN (fun p => response_time_for res I (fst p) (snd p) true) g). lia.
Qed.

Lemma clusters_fold res I tsk L : forall st, fold_left (mpcp_cluster_blocking res I tsk) L st = mpcp_cluster_blocking res I tsk st (concat L).
Proof.
  induction L as [|l r IH]; intros st; cbn [fold_left concat]; [reflexivity|]. rewrite IH. unfold mpcp_cluster_blocking. rewrite fold_left_app. reflexivity.
Qed.

Lemma step_value res tsk L I : mpcp_request_step res tsk L I =
  nsumN (fun p => response_time_for res I (fst p) (snd p) true) (filter (higher tsk) (concat L)) +
  fold_left N.max (map (fun p => response_time_for res I (fst p) (snd p) false) (filter (lower tsk) (concat L))) 0.
Proof. unfold mpcp_request_step. rewrite clusters_fold, cluster_fold. cbn [fst snd]. lia. Qed.

Lemma fold_max_ge l : forall m, m <= fold_left N.max l m /\ forall x, In x l -> x <= fold_left N.max l m.
Proof. induction l as [|y r IH]; intros m; cbn [fold_left]; [split; [lia|intros x []]|]. destruct (IH (N.max m y)) as [A B]. split; [lia|]. intros x [<-|H]; [lia|apply B; exact H]. Qed.

Lemma step_mono res tsk L I J : (forall p, In p (concat L) -> 0 < ti_period (fst p)) -> I <= J -> mpcp_request_step res tsk L I <= mpcp_request_step res tsk L J.
Proof.
  intros P LE. rewrite !step_value. apply N.add_le_mono.
  - apply nsumN_le. intros p Hp. apply filter_In in Hp. apply rtf_mono; [apply P, Hp|exact LE].
  - rewrite (map_ext _ (fun p => response_time_for res J (fst p) (snd p) false)); [lia|]. intros p. apply rtf_once.
Qed.

(** ** The loop *)
Lemma loop_value fuel step limit : forall I v, mpcp_loop fuel step limit I = Some v -> v = UNLIMITED \/ (step v = v /\ v <= limit).
Proof.
  induction fuel as [|n IH]; intros I v; cbn [mpcp_loop]; [discriminate|]. destruct (N.ltb_spec limit I) as [L|L]; [intros E; injection E as <-; left; reflexivity|].
  destruct (N.eqb_spec I (step I)) as [E|E]; [intros X; injection X as <-; right; split; [congruence|lia]|apply IH].
Qed.

Lemma loop_ends step limit : (forall a b, a <= b -> step a <= step b) -> forall fuel I, (N.to_nat (limit + 1) < fuel + N.to_nat I)%nat -> I <= step I -> (0 < fuel)%nat -> mpcp_loop fuel step limit I <> None.
Proof.
  intros M. induction fuel as [|n IH]; intros I F L Z; [lia|]. cbn [mpcp_loop]. destruct (N.ltb_spec limit I) as [B|B]; [discriminate|]. destruct (N.eqb_spec I (step I)) as [E|E]; [discriminate|].
  apply IH; [lia|apply M; exact L|lia].
Qed.

Lemma request_blocking_ends res tsk L : (forall p, In p (concat L) -> 0 < ti_period (fst p)) -> mpcp_request_blocking res tsk L <> None.
Proof.
  intros P. unfold mpcp_request_blocking. cbv zeta. set (limit := N.max (ti_response tsk) (ti_period tsk)). set (step := mpcp_request_step res tsk L).
  assert (M : forall a b, a <= b -> step a <= step b) by (intros a b; apply step_mono; exact P). rewrite Nat.add_comm. cbn [Nat.add mpcp_loop].
  destruct (N.ltb_spec limit 1) as [B|B]; [discriminate|]. destruct (N.eqb_spec 1 (step 1)) as [E|E]; [discriminate|].
  destruct (N.ltb_spec limit (step 1)) as [B1|B1]; [discriminate|]. destruct (N.eqb_spec (step 1) (step (step 1))) as [E1|E1]; [discriminate|].
  destruct (N.eq_dec (step 1) 0) as [Z|Z]; [exfalso; apply E1; rewrite Z; pose proof (M 0 1 ltac:(lia)); lia|].
  destruct (N.ltb_spec limit (step (step 1))) as [B2|B2]; [discriminate|]. destruct (N.eqb_spec (step (step 1)) (step (step (step 1)))) as [E2|E2]; [discriminate|].
  assert (S1 : 1 <= step 1) by lia. assert (S2 := M _ _ S1). assert (S3 := M _ _ S2). assert (S4 := M _ _ S3).
  destruct (N.ltb_spec limit (step (step (step 1)))) as [B3|B3]; [discriminate|]. destruct (N.eqb_spec (step (step (step 1))) (step (step (step (step 1))))) as [E3|E3]; [discriminate|].
  destruct (N.to_nat limit) as [|n] eqn:EN; [lia|].
  apply loop_ends; [exact M| |apply M; exact S4|lia]. lia.
Qed.

(** ** Ceilings *)
Lemma ceiling_fold cl cs : forall c, let v := fold_left (fun ceiling req => if negb (Nat.eqb (ti_cluster (rb_task req)) cl) then N.min ceiling (ti_prio (rb_task req)) else ceiling) cs c in
  v <= c /\ (forall rb, In rb cs -> ti_cluster (rb_task rb) <> cl -> v <= ti_prio (rb_task rb)) /\ (v = c \/ exists rb, In rb cs /\ ti_cluster (rb_task rb) <> cl /\ v = ti_prio (rb_task rb)).
Proof.
  induction cs as [|x r IH]; intros c; cbn [fold_left]; [split; [lia|split; [intros rb []|left; reflexivity]]|]. cbv zeta in *.
  destruct (Nat.eqb_spec (ti_cluster (rb_task x)) cl) as [E|E]; cbn [negb].
  - destruct (IH c) as [A [B D]]. split; [exact A|]. split; [intros rb [<-|H] N; [contradiction|apply B; assumption]|]. destruct D as [D|[rb [D1 D2]]]; [left; exact D|right; exists rb; split; [right; exact D1|exact D2]].
  - destruct (IH (N.min c (ti_prio (rb_task x)))) as [A [B D]]. split; [lia|]. split; [intros rb [<-|H] N; [lia|apply B; assumption]|].
    destruct D as [D|[rb [D1 D2]]]; [|right; exists rb; split; [right; exact D1|exact D2]]. rewrite D. destruct (N.le_ge_cases c (ti_prio (rb_task x))) as [L|L]; [left; lia|right; exists x; split; [left; reflexivity|split; [exact E|lia]]].
Qed.

Section Ceilings.
Context (info : list taskinfo) (cl : nat).
Hypothesis Hcl : (cl < num_clusters info)%nat.
Let ceilings := get_mpcp_ceilings info.

Lemma ceiling_row : nth cl ceilings [] = determine_mpcp_ceilings (split_by_resource info) cl.
Proof.
  unfold ceilings, get_mpcp_ceilings. rewrite (nth_indep _ [] (determine_mpcp_ceilings (split_by_resource info) 0)) by (rewrite map_length, seq_length; exact Hcl). rewrite map_nth, seq_nth by exact Hcl. reflexivity.
Qed.

Lemma ceiling_value r : ceiling_of ceilings cl r = mpcp_ceiling cl (for_resource r (all_requests info)).
Proof.
  unfold ceiling_of. rewrite ceiling_row. unfold determine_mpcp_ceilings. change UNLIMITED with (mpcp_ceiling cl []). rewrite map_nth, split_by_resource_nth. reflexivity.
Qed.

Lemma ceiling_reached r p : remote_ceiling_reaches info cl r p -> ceiling_of ceilings cl r <= p.
Proof.
  intros [u [q [H1 [H2 [H3 [H4 H5]]]]]]. rewrite ceiling_value. destruct (ceiling_fold cl (for_resource r (all_requests info)) UNLIMITED) as [_ [B _]]. eapply N.le_trans; [apply (B (RB u q)); [|exact H2]|exact H5].
  unfold for_resource. apply filter_In. split; [apply (proj2 (ProofBlame.in_all_requests info (RB u q))); split; assumption|]. unfold rb_res. cbn. apply Nat.eqb_eq. exact H4.
Qed.

Lemma ceiling_witness r : ceiling_of ceilings cl r = UNLIMITED \/ remote_ceiling_reaches info cl r (ceiling_of ceilings cl r).
Proof.
  rewrite ceiling_value. destruct (ceiling_fold cl (for_resource r (all_requests info)) UNLIMITED) as [_ [_ [D|[rb [D1 [D2 D3]]]]]]; [left; exact D|right].
  unfold for_resource in D1. apply filter_In in D1. destruct D1 as [D1 D4]. apply (proj1 (ProofBlame.in_all_requests _ _)) in D1. apply Nat.eqb_eq in D4. exists (rb_task rb), (rb_req rb). unfold rb_res in D4. split; [tauto|]. split; [exact D2|]. split; [tauto|]. split; [exact D4|]. unfold mpcp_ceiling. rewrite <- D3. apply N.le_refl.
Qed.

Lemma ceiling_order r s : (forall p, remote_ceiling_reaches info cl r p -> remote_ceiling_reaches info cl s p) -> ceiling_of ceilings cl s <= ceiling_of ceilings cl r.
Proof.
  intros H. destruct (ceiling_witness r) as [E|R]; [|apply ceiling_reached, H, R]. rewrite E, ceiling_value. apply (ceiling_fold cl (for_resource s (all_requests info)) UNLIMITED).
Qed.
End Ceilings.

Lemma gcs_length_ge t ceilings p q : In q (ti_requests t) -> ceiling_of ceilings (ti_cluster t) (q_res q) <= p -> q_len q <= get_max_gcs_length t ceilings p.
Proof.
  unfold get_max_gcs_length. assert (G : forall l m, m <= fold_left (fun g q => if ceiling_of ceilings (ti_cluster t) (q_res q) <=? p then N.max g (q_len q) else g) l m /\
    forall q, In q l -> ceiling_of ceilings (ti_cluster t) (q_res q) <= p -> q_len q <= fold_left (fun g q => if ceiling_of ceilings (ti_cluster t) (q_res q) <=? p then N.max g (q_len q) else g) l m).
  { induction l as [|x r IH]; intros m; cbn [fold_left]; [split; [lia|intros y []]|]. destruct (N.leb_spec (ceiling_of ceilings (ti_cluster t) (q_res x)) p) as [L|L].
    - destruct (IH (N.max m (q_len x))) as [A B]. split; [lia|]. intros y [<-|H] C; [lia|apply B; assumption].
    - destruct (IH m) as [A B]. split; [exact A|]. intros y [<-|H] C; [lia|apply B; assumption]. }
  intros H C. apply (G (ti_requests t) 0); assumption.
Qed.

Lemma max_length_ge t q : In q (ti_requests t) -> q_len q <= get_max_request_length t.
Proof.
  unfold get_max_request_length. assert (G : forall l m, m <= fold_left (fun g q => N.max g (q_len q)) l m /\ forall q, In q l -> q_len q <= fold_left (fun g q => N.max g (q_len q)) l m).
  { induction l as [|x r IH]; intros m; cbn [fold_left]; [split; [lia|intros y []]|]. destruct (IH (N.max m (q_len x))) as [A B]. split; [lia|]. intros y [<-|H]; [lia|apply B; assumption]. }
  intros H. apply (G (ti_requests t) 0); assumption.
Qed.

(** at most [c] units of at most [m] each *)
Lemma weighted {A} (n w : A -> N) l m c : nsumN n l <= c -> (forall a, In a l -> n a <> 0 -> w a <= m) -> nsumN (fun a => n a * w a) l <= c * m.
Proof.
  intros C H. apply N.le_trans with (nsumN n l * m); [|apply N.mul_le_mono_r; exact C]. rewrite <- nsumN_mul. apply nsumN_le. intros a Ha. destruct (N.eq_dec (n a) 0) as [Z|Z]; [rewrite Z; lia|]. apply N.mul_le_mono_l. apply H; assumption.
Qed.

Lemma nsumN_filter_split {A} (f : A -> N) p l : nsumN f l = nsumN f (filter p l) + nsumN f (filter (fun a => negb (p a)) l).
Proof.
  induction l as [|x r IH]; [reflexivity|]. cbn [filter]. change (nsumN f (x :: r)) with (f x + nsumN f r). destruct (p x); cbn [negb].
  - change (nsumN f (x :: filter p r)) with (f x + nsumN f (filter p r)). lia.
  - change (nsumN f (x :: filter (fun a => negb (p a)) r)) with (f x + nsumN f (filter (fun a => negb (p a)) r)). lia.
Qed.

Lemma length_split {A} (p : A -> bool) l : length l = (length (filter p l) + length (filter (fun a => negb (p a)) l))%nat.
Proof. induction l as [|x r IH]; [reflexivity|]. cbn [filter]. destruct (p x); cbn [negb length]; lia. Qed.

(** * Executions *)
Section Exec.
Context (info : list taskinfo) (vs : bool) (rel comp : nat -> nat -> Z) (sched : nat -> Z -> option (nat * nat)) (tr : nat -> list creq).
Hypothesis W : wf_info info.
Hypothesis SJ : forall t, In t info -> sporadic_jobs (ti_period t) (ti_response t) (rel (ti_id t)) (comp (ti_id t)).
Hypothesis EX : mpcp_execution info vs rel comp sched tr.
Let exec := runs info sched.
Let LR := mp_requests _ _ _ _ _ _ EX.
Let ceilings := get_mpcp_ceilings info.

Lemma runs_spec r c t : exec r c t = true <-> (cr_start c <= t < cr_end c)%Z /\ sched (tcpu info (cr_task c)) t = Some (cr_task c, cr_job c).
Proof.
  unfold exec, runs. rewrite !andb_true_iff, Z.leb_le, Z.ltb_lt. destruct (sched (tcpu info (cr_task c)) t) as [[j l]|]; [|split; [intros [_ H]; discriminate|intros [_ H]; discriminate]].
  rewrite andb_true_iff, !Nat.eqb_eq. split; [intros [H [-> ->]]; auto|intros [H E]; injection E as -> ->; auto].
Qed.

Lemma runs_times r a t : In a (tr r) -> exec r a t = true -> (cr_start a <= t < cr_end a)%Z.
Proof. intros _ H. apply runs_spec in H. apply H. Qed.

(** the requests of a task do not overlap *)
Lemma outstanding_unique r s a b t : In a (tr r) -> In b (tr s) -> cr_task a = cr_task b -> (cr_issue a <= t < cr_end a)%Z -> (cr_issue b <= t < cr_end b)%Z -> (r, a) = (s, b).
Proof.
  intros A B E TA TB. assert (DEC : {(r, a) = (s, b)} + {(r, a) <> (s, b)}) by (repeat decide equality). destruct DEC as [D|NE]; [exact D|exfalso].
  destruct (mp_sequential _ _ _ _ _ _ EX r s a b A B NE E) as [H|H]; lia.
Qed.

(** a processor executes one request at a time *)
Lemma runs_unique r s a b t : In a (tr r) -> In b (tr s) -> tcpu info (cr_task a) = tcpu info (cr_task b) -> exec r a t = true -> exec s b t = true -> (r, a) = (s, b).
Proof.
  intros A B E HA HB. apply runs_spec in HA, HB. destruct HA as [TA SA], HB as [TB SB]. rewrite E, SB in SA. injection SA as SA1 SA2.
  pose proof (lr_times _ _ _ _ _ _ (LR r) a A). pose proof (lr_times _ _ _ _ _ _ (LR s) b B). apply (outstanding_unique r s a b t A B); [congruence|lia|lia].
Qed.

Lemma task_of r a : In a (tr r) -> exists u, nth_error info (cr_task a) = Some u /\ In u info /\ ti_id u = cr_task a /\ tcpu info (cr_task a) = ti_cluster u.
Proof. intros Ha. destruct (source info rel comp exec tr W LR r a Ha) as [rb [H1 [H2 [_ H4]]]]. apply in_all_requests in H1. exists (rb_task rb). unfold tcpu. rewrite H4. tauto. Qed.

(** requests that are outstanding at some points in time *)
Lemma points_number (hit : nat -> creq -> bool) x (P : list Z) : In x info ->
  (forall r a, In a (tr r) -> cr_task a = ti_id x -> hit r a = true -> exists z, In z P /\ (cr_issue a <= z < cr_end a)%Z) ->
  nsumN (nhits tr hit) (map (RB x) (ti_requests x)) <= N.of_nat (length P).
Proof.
  intros Hx H. set (S := concat (map (fun rb => map (pair (rb_res rb)) (hits tr hit rb)) (map (RB x) (ti_requests x)))).
  assert (E : nsumN (nhits tr hit) (map (RB x) (ti_requests x)) = N.of_nat (length S)).
  { unfold S. generalize (map (RB x) (ti_requests x)). intros l. induction l as [|rb r IH]; [reflexivity|]. cbn [map concat]. rewrite app_length, map_length.
    change (nsumN (nhits tr hit) (rb :: r)) with (nhits tr hit rb + nsumN (nhits tr hit) r). rewrite IH. unfold nhits. lia. }
  assert (IS : forall r a, In (r, a) S -> In a (tr r) /\ cr_task a = ti_id x /\ hit r a = true).
  { intros r a HS. unfold S in HS. apply in_concat in HS. destruct HS as [l [L1 L2]]. apply in_map_iff in L1. destruct L1 as [rb [<- L1]]. apply in_map_iff in L2. destruct L2 as [c [E2 L2]]. injection E2 as <- <-.
    apply in_hits in L2. apply in_map_iff in L1. destruct L1 as [q [<- _]]. exact L2. }
  rewrite E. enough (length S <= length P)%nat by lia.
  apply (rel_inj (fun p z => (cr_issue (snd p) <= z < cr_end (snd p))%Z)).
  - unfold S. rewrite map_map. apply (nodup_concat fst q_res).
    + destruct W as [_ W2]. apply (W2 x Hx).
    + intros q _. apply FinFun.Injective_map_NoDup; [intros u v E3; congruence|]. apply NoDup_filter. apply (mp_distinct _ _ _ _ _ _ EX).
    + intros q p _ Hp. apply in_map_iff in Hp. destruct Hp as [b [<- _]]. reflexivity.
  - intros [r a] Ha. apply IS in Ha. cbn [snd]. apply (H r a); tauto.
  - intros [r a] [s b] z Ha Hb _ Ra Rb. apply IS in Ha, Hb. cbn [snd] in Ra, Rb. apply (outstanding_unique r s a b z); try tauto. destruct Ha as [_ [-> _]], Hb as [_ [-> _]]. reflexivity.
Qed.

(** ** Holding times *)
Definition hold_time (t : taskinfo) (q : reqspec) : N := gcs_response_time t (in_cluster (ti_cluster t) info) ceilings q.

Lemma zrange_nodup lo hi : NoDup (zrange lo hi).
Proof. unfold zrange. apply FinFun.Injective_map_NoDup; [intros a b; lia|apply seq_NoDup]. Qed.
Lemma zrange_length lo hi : length (zrange lo hi) = Z.to_nat (hi - lo).
Proof. unfold zrange. rewrite map_length, seq_length. reflexivity. Qed.

Definition hitH (r : nat) (a : creq) (s : nat) (c : creq) : bool :=
  (ceiling_of ceilings (tcpu info (cr_task a)) s <=? ceiling_of ceilings (tcpu info (cr_task a)) r) && existsb (exec s c) (zrange (cr_start a) (cr_end a)).

Lemma hitH_outstanding r a s c : In a (tr r) -> In c (tr s) -> tcpu info (cr_task c) = tcpu info (cr_task a) -> hitH r a s c = true -> (cr_issue c <= cr_start a < cr_end c)%Z.
Proof.
  intros A C E H. unfold hitH in H. apply andb_true_iff in H. destruct H as [_ H]. apply existsb_exists in H. destruct H as [t [T1 T2]]. apply in_zrange in T1. apply runs_spec in T2. destruct T2 as [T2 _].
  pose proof (lr_times _ _ _ _ _ _ (LR s) c C). pose proof (lr_times _ _ _ _ _ _ (LR r) a A).
  assert (DEC : {(r, a) = (s, c)} + {(r, a) <> (s, c)}) by (repeat decide equality). destruct DEC as [D|NE]; [injection D as <- <-; lia|].
  pose proof (mp_issue _ _ _ _ _ _ EX r s a c A C NE (eq_sym E)). lia.
Qed.

Lemma hold_bound r a u q : In a (tr r) -> In u info -> cr_task a = ti_id u -> In q (ti_requests u) -> q_res q = r -> (cr_end a - cr_start a <= Z.of_N (hold_time u q))%Z.
Proof.
  intros A U TA Q QR. set (cl := ti_cluster u). assert (CA : tcpu info (cr_task a) = cl) by (unfold tcpu; rewrite TA, (info_nth info W u U); reflexivity).
  set (ts := zrange (cr_start a) (cr_end a)). assert (LEN : N.of_nat (length ts) <= hold_time u q); [|unfold ts in LEN; rewrite zrange_length in LEN; lia].
  pose proof (cluster_lt info u U) as CLT. fold cl in CLT.
  eapply N.le_trans; [apply (charge info rel comp exec tr W LR (hitH r a) (all_requests (in_cluster cl info)) ts runs_times); [|apply zrange_nodup|]|].
  - intros rb Hrb. unfold in_cluster in Hrb. rewrite all_requests_filter in Hrb. apply filter_In in Hrb. apply Hrb.
  - intros t Ht. pose proof Ht as Ht'. apply in_zrange in Ht'. destruct (mp_boost _ _ _ _ _ _ EX r a t A Ht') as [s [c [C1 [C2 [C3 C4]]]]]. destruct (source info rel comp exec tr W LR s c C1) as [rb [R1 [R2 [R3 R4]]]]. exists rb, c. split; [|split].
    + unfold in_cluster. rewrite all_requests_filter, filter_In, Nat.eqb_eq. split; [exact R1|]. unfold tcpu in C2 at 1. rewrite R4, CA in C2. exact C2.
    + apply in_hits. rewrite R3. split; [exact C1|]. split; [congruence|]. unfold hitH. apply andb_true_iff. split; [|apply existsb_exists; exists t; split; assumption].
      apply N.leb_le. rewrite CA in C4 |- *. apply (ceiling_order info cl CLT). exact C4.
    + rewrite R3. exact C3.
  - rewrite all_requests_sum. unfold hold_time, gcs_response_time. fold cl. rewrite (fold_num_sum (fun t => get_max_gcs_length t ceilings (ceiling_of ceilings cl (q_res q))) (fun t => negb (Nat.eqb (ti_id t) (ti_id u)))).
    rewrite (nsumN_filter_split _ (fun t => Nat.eqb (ti_id t) (ti_id u))). apply N.add_le_mono.
    + assert (S : nsumN (fun rb => nhits tr (hitH r a) rb * rb_len rb) (map (RB u) (ti_requests u)) <= 1 * q_len q).
      { apply weighted.
        - apply (points_number (hitH r a) u [cr_start a] U). intros s c C1 C2 C3. exists (cr_start a). split; [left; reflexivity|]. apply (hitH_outstanding r a s c A C1); [congruence|exact C3].
        - intros rb Hrb NZ. unfold nhits in NZ. destruct (hits tr (hitH r a) rb) as [|c l] eqn:X; [cbn in NZ; congruence|].
          assert (Hc : In c (hits tr (hitH r a) rb)) by (rewrite X; left; reflexivity). apply in_hits in Hc. destruct Hc as [C1 [C2 C3]]. apply in_map_iff in Hrb. destruct Hrb as [q' [<- Hq']]. cbn [rb_task] in C2.
          pose proof (hitH_outstanding r a _ c A C1 ltac:(congruence) C3) as O. unfold hitH in C3. apply andb_true_iff in C3. destruct C3 as [_ C3]. apply existsb_exists in C3. destruct C3 as [t [T1 T2]]. apply in_zrange in T1. apply runs_spec in T2.
          pose proof (lr_times _ _ _ _ _ _ (LR r) a A). assert (E : (rb_res (RB u q'), c) = (r, a)) by (apply (outstanding_unique _ _ c a (cr_start a) C1 A); [congruence|lia|lia]).
          injection E as E1 _. unfold rb_res in E1. cbn in E1. assert (q' = q) as ->; [|unfold rb_len; cbn; lia].
          destruct W as [_ W2]. destruct (W2 _ U) as [_ ND]. clear - ND Q Hq' E1 QR. rewrite <- QR in E1. induction (ti_requests u) as [|x l IH]; [destruct Q|]. cbn [map] in ND. inversion ND as [|y z N1 N2]; subst y z.
          destruct Q as [->|Q], Hq' as [->|H']; [reflexivity| | |auto]; exfalso; apply N1; [rewrite <- E1|rewrite E1]; apply in_map; assumption. }
      assert (F : forall x, In x (filter (fun t => Nat.eqb (ti_id t) (ti_id u)) (in_cluster cl info)) -> x = u).
      { intros x Hx. apply filter_In in Hx. destruct Hx as [H1 H2]. apply Nat.eqb_eq in H2. unfold in_cluster in H1. apply filter_In in H1. apply (info_inj info W); tauto. }
      assert (ND : NoDup (filter (fun t => Nat.eqb (ti_id t) (ti_id u)) (in_cluster cl info))).
      { apply NoDup_filter. unfold in_cluster. apply NoDup_filter. destruct W as [W1 _]. apply (NoDup_map_inv ti_id). rewrite W1. apply seq_NoDup. }
      destruct (filter (fun t => Nat.eqb (ti_id t) (ti_id u)) (in_cluster cl info)) as [|x [|y l]]; [cbn; lia| |].
      * rewrite (F x (or_introl eq_refl)). cbn [nsumN fold_right]. lia.
      * exfalso. inversion ND as [|? ? N1 _]; subst. apply N1. left. rewrite (F x (or_introl eq_refl)), (F y (or_intror (or_introl eq_refl))). reflexivity.
    + apply nsumN_le. intros x Hx. apply filter_In in Hx. destruct Hx as [Hx NX]. unfold in_cluster in Hx. apply filter_In in Hx. destruct Hx as [Hx Cx]. apply Nat.eqb_eq in Cx.
      assert (CX : tcpu info (ti_id x) = cl) by (unfold tcpu; rewrite (info_nth info W x Hx); exact Cx).
      rewrite <- (N.mul_1_l (get_max_gcs_length _ _ _)). apply weighted.
      * apply (points_number (hitH r a) x [cr_start a] Hx). intros s c C1 C2 C3. exists (cr_start a). split; [left; reflexivity|]. apply (hitH_outstanding r a s c A C1); [congruence|exact C3].
      * intros rb Hrb NZ. unfold nhits in NZ. destruct (hits tr (hitH r a) rb) as [|c l] eqn:X; [cbn in NZ; congruence|].
        assert (Hc : In c (hits tr (hitH r a) rb)) by (rewrite X; left; reflexivity). apply in_hits in Hc. destruct Hc as [C1 [C2 C3]]. apply in_map_iff in Hrb. destruct Hrb as [q' [<- Hq']].
        unfold hitH in C3. apply andb_true_iff in C3. destruct C3 as [C3 _]. apply N.leb_le in C3. rewrite CA in C3. unfold rb_len, rb_res in *. cbn in C3 |- *. apply gcs_length_ge; [exact Hq'|]. rewrite Cx, QR. exact C3.
Qed.

(** ** Waiting times *)
Lemma zlist_length (lo hi : Z) l : NoDup l -> (forall t, In t l -> (lo <= t < hi)%Z) -> (length l <= Z.to_nat (hi - lo))%nat.
Proof. intros ND H. rewrite <- (zrange_length lo hi). apply NoDup_incl_length; [exact ND|]. intros t Ht. apply in_zrange. apply H. exact Ht. Qed.

Lemma ceil_add v R T : 0 < T -> R <= T -> divide_with_ceil (v + R) T <= divide_with_ceil v T + 1.
Proof.
  intros P L. destruct (N.le_gt_cases (divide_with_ceil (v + R) T) (divide_with_ceil v T + 1)) as [X|X]; [exact X|exfalso].
  apply (proj1 (divide_with_ceil_spec _ _ P _)) in X. destruct (N.lt_ge_cases (divide_with_ceil v T) (divide_with_ceil v T)) as [Y|_]; [lia|].
  assert (Y : divide_with_ceil v T * T < v) by lia. apply (proj2 (divide_with_ceil_spec _ _ P _)) in Y. lia.
Qed.

Definition covers (a : creq) (t : Z) : bool := (cr_start a <=? t)%Z && (t <? cr_end a)%Z.
Lemma covers_spec a t : covers a t = true <-> (cr_start a <= t < cr_end a)%Z.
Proof. unfold covers. rewrite andb_true_iff, Z.leb_le, Z.ltb_lt. reflexivity. Qed.
Definition held_by (r : nat) (x : taskinfo) (t : Z) : bool := existsb (fun a => Nat.eqb (cr_task a) (ti_id x) && covers a t) (tr r).
Lemma held_by_spec r x t : held_by r x t = true <-> exists a, In a (tr r) /\ cr_task a = ti_id x /\ (cr_start a <= t < cr_end a)%Z.
Proof.
  unfold held_by. rewrite existsb_exists. split; intros [a [A B]]; exists a; rewrite ?andb_true_iff, ?Nat.eqb_eq, ?covers_spec in *; tauto.
Qed.

Hypothesis UP : NoDup (map ti_prio info).
Hypothesis RP : forall t, In t info -> ti_response t <= ti_period t.

Lemma prio_inj t u : In t info -> In u info -> ti_prio t = ti_prio u -> t = u.
Proof.
  clear - UP. induction info as [|x l IH]; [intros []|]. cbn [map] in UP. inversion UP as [|y z N1 N2]; subst y z. intros [->|A] [->|B] E; [reflexivity| | |auto]; exfalso; apply N1; [rewrite E|rewrite <- E]; apply in_map; assumption.
Qed.

Lemma request_of r a x : In a (tr r) -> In x info -> cr_task a = ti_id x -> exists q, In q (ti_requests x) /\ q_res q = r.
Proof.
  intros A X T. destruct (source info rel comp exec tr W LR r a A) as [rb [R1 [R2 [R3 R4]]]]. apply in_all_requests in R1. assert (E : rb_task rb = x) by (apply (info_inj info W); [apply R1|exact X|congruence]).
  exists (rb_req rb). rewrite <- E. split; [apply R1|exact R3].
Qed.

Lemma times_value x q m I : In x info -> In q (ti_requests x) ->
  response_time_for (q_res q) I x (times_of info ceilings x) m = if m then (divide_with_ceil I (ti_period x) + 1) * hold_time x q * q_num q else hold_time x q.
Proof.
  intros X Q. destruct W as [_ W2]. destruct (W2 x X) as [_ ND]. unfold times_of, task_response_times. rewrite (rtf_value (q_res q) I x _ m q ND Q eq_refl). reflexivity.
Qed.

Lemma step_sum r tsk v : mpcp_request_step r tsk (both info) v =
  nsumN (fun x => response_time_for r v x (times_of info ceilings x) true) (filter (fun x => negb (Nat.eqb (ti_id x) (ti_id tsk)) && (ti_prio x <? ti_prio tsk)) info) +
  fold_left N.max (map (fun p => response_time_for r v (fst p) (snd p) false) (filter (lower tsk) (concat (both info)))) 0.
Proof.
  rewrite step_value. f_equal. rewrite concat_both. fold ceilings.
  assert (G : forall l, nsumN (fun p => response_time_for r v (fst p) (snd p) true) (filter (higher tsk) (map (fun t => (t, times_of info ceilings t)) l)) =
    nsumN (fun x => response_time_for r v x (times_of info ceilings x) true) (filter (fun x => negb (Nat.eqb (ti_id x) (ti_id tsk)) && (ti_prio x <? ti_prio tsk)) l)).
  { induction l as [|x l IH]; [reflexivity|]. cbn [map filter]. unfold higher at 1, others. cbn [fst]. destruct (_ && _); [|exact IH]. cbn [nsumN fold_right fst snd]. unfold nsumN in IH. rewrite IH. reflexivity. }
  rewrite G. set (P := fun x => negb (Nat.eqb (ti_id x) (ti_id tsk)) && (ti_prio x <? ti_prio tsk)). set (F := fun x => response_time_for r v x (times_of info ceilings x) true).
  assert (PM : forall l l', Permutation l l' -> nsumN F (filter P l) = nsumN F (filter P l')).
  { clear. induction 1 as [|x l l' _ IH|x y l|l l1 l2 _ IH1 _ IH2]; [reflexivity| | |congruence].
    - cbn [filter]. destruct (P x); [|exact IH]. cbn [nsumN fold_right]. unfold nsumN in IH. rewrite IH. reflexivity.
    - cbn [filter]. destruct (P x), (P y); cbn [nsumN fold_right]; lia. }
  apply PM, clusters_perm.
Qed.

Lemma higher_part r x v t0 l : In x info -> NoDup l -> (forall t, In t l -> (t0 <= t <= t0 + Z.of_N v)%Z) ->
  N.of_nat (length (filter (held_by r x) l)) <= response_time_for r v x (times_of info ceilings x) true.
Proof.
  intros X ND HL. destruct (filter (held_by r x) l) as [|t1 l1] eqn:E; [cbn [length]; lia|]. rewrite <- E.
  assert (H1 : In t1 (filter (held_by r x) l)) by (rewrite E; left; reflexivity). apply filter_In in H1. destruct H1 as [_ H1]. apply held_by_spec in H1. destruct H1 as [a1 [A1 [A2 _]]].
  destruct (request_of r a1 x A1 X A2) as [q [Q1 Q2]]. clear E t1 l1 a1 A1 A2. rewrite <- Q2 at 2. rewrite (times_value x q true v X Q1).
  set (As := filter (fun a => Nat.eqb (cr_task a) (ti_id x) && existsb (covers a) l) (tr r)).
  assert (IA : forall a, In a As <-> In a (tr r) /\ cr_task a = ti_id x /\ exists t, In t l /\ (cr_start a <= t < cr_end a)%Z).
  { intros a. unfold As. rewrite filter_In, andb_true_iff, Nat.eqb_eq, existsb_exists. split; intros [B [C [t [D F]]]]; split; try assumption; split; try assumption; exists t; split; try assumption; apply covers_spec; exact F. }
  assert (C : (length (filter (held_by r x) l) <= nsum (fun a => length (filter (covers a) (filter (held_by r x) l))) As)%nat).
  { apply (cover_count covers). intros t Ht. apply filter_In in Ht. destruct Ht as [T1 T2]. apply held_by_spec in T2. destruct T2 as [a [B1 [B2 B3]]]. exists a. split; [apply IA; eauto|apply covers_spec; exact B3]. }
  assert (D : (nsum (fun a => length (filter (covers a) (filter (held_by r x) l))) As <= length As * N.to_nat (hold_time x q))%nat).
  { assert (IA' : forall a, In a As -> In a (tr r) /\ cr_task a = ti_id x) by (intros a Ha; apply IA in Ha; tauto). clear IA C. induction As as [|a As IH]; [cbn; lia|]. cbn [nsum fold_right length]. destruct (IA' a (or_introl eq_refl)) as [B1 B2].
    assert (HB := hold_bound r a x q B1 X B2 Q1 Q2). assert (ZL := zlist_length (cr_start a) (cr_end a) (filter (covers a) (filter (held_by r x) l)) (NoDup_filter _ (NoDup_filter _ ND)) ltac:(intros t Ht; apply filter_In in Ht; apply covers_spec; apply Ht)).
    specialize (IH (fun c Hc => IA' c (or_intror Hc))). unfold nsum in IH. lia. }
  assert (K : N.of_nat (length As) <= divide_with_ceil (v + ti_response x) (ti_period x) * q_num q).
  { destruct W as [_ W2]. destruct (W2 x X) as [Hp _]. destruct (SJ x X) as [S1 S2]. apply (requests_bound (rel (ti_id x)) (ti_period x) Hp S1 (ti_id x) _ _ (t0 - Z.of_N (ti_response x) + 1)%Z).
    - intros a Ha. apply IA in Ha. destruct Ha as [B1 [B2 [t [B3 B4]]]]. split; [exact B2|]. destruct (lr_job _ _ _ _ _ _ (LR r) a B1) as [J1 J2]. rewrite B2 in J1, J2. pose proof (lr_times _ _ _ _ _ _ (LR r) a B1). specialize (S2 (cr_job a)). specialize (HL t B3). lia.
    - intros j. unfold As. rewrite filter_and. eapply N.le_trans; [|apply (lr_number _ _ _ _ _ _ (LR r) (ti_id x) j x q); [apply (info_nth info W); exact X|exact Q1|exact Q2]].
      enough (length (filter (fun a => Nat.eqb (cr_task a) (ti_id x) && existsb (covers a) l && is_job (ti_id x) j a) (tr r)) <= length (filter (is_job (ti_id x) j) (tr r)))%nat by lia.
      apply filter_length_imp. intros a _ F. apply andb_true_iff in F. apply F. }
  assert (CA := ceil_add v (ti_response x) (ti_period x) ltac:(destruct W as [_ W2]; apply (W2 x X)) (RP x X)).
  apply N.le_trans with (N.of_nat (length As) * hold_time x q); [lia|]. apply N.le_trans with (((divide_with_ceil v (ti_period x) + 1) * q_num q) * hold_time x q); [|lia].
  apply N.mul_le_mono_r. eapply N.le_trans; [exact K|]. apply N.mul_le_mono_r. exact CA.
Qed.

Lemma wait_bound tsk r b v : In tsk info -> In b (tr r) -> cr_task b = ti_id tsk -> mpcp_request_step r tsk (both info) v = v -> (cr_start b - cr_issue b <= Z.of_N v)%Z.
Proof.
  intros HT B TB FX. destruct (Z_le_dec (cr_start b - cr_issue b) (Z.of_N v)) as [L|L]; [exact L|exfalso].
  set (t0 := cr_issue b). set (ts := zrange t0 (t0 + Z.of_N v + 1)).
  assert (NDT : NoDup ts) by apply zrange_nodup. assert (IT : forall t, In t ts -> (t0 <= t <= t0 + Z.of_N v)%Z) by (intros t Ht; apply in_zrange in Ht; lia).
  assert (TL : length ts = S (N.to_nat v)) by (unfold ts; rewrite zrange_length; lia).
  assert (HO : forall t, In t ts -> exists a x, In a (tr r) /\ (cr_start a <= t < cr_end a)%Z /\ In x info /\ cr_task a = ti_id x /\ ti_id x <> ti_id tsk).
  { intros t Ht. specialize (IT t Ht). destruct (mp_held _ _ _ _ _ _ EX r b t B ltac:(unfold t0 in IT; lia)) as [a [A1 A2]]. destruct (task_of r a A1) as [x [X1 [X2 [X3 X4]]]]. exists a, x. repeat split; try assumption; try congruence; try lia.
    intros E. assert (NE : (r, a) <> (r, b)) by (intros E'; injection E' as ->; unfold t0 in IT; lia). pose proof (lr_times _ _ _ _ _ _ (LR r) a A1). pose proof (lr_times _ _ _ _ _ _ (LR r) b B).
    destruct (mp_sequential _ _ _ _ _ _ EX r r a b A1 B NE ltac:(congruence)) as [Q|Q]; unfold t0 in IT; lia. }
  set (P := fun x => negb (Nat.eqb (ti_id x) (ti_id tsk)) && (ti_prio x <? ti_prio tsk)).
  set (f := fun t => existsb (fun x => held_by r x t) (filter P info)).
  pose proof (length_split f ts) as FS. rewrite step_sum in FX.
  assert (HI : N.of_nat (length (filter f ts)) <= nsumN (fun x => response_time_for r v x (times_of info ceilings x) true) (filter P info)).
  { assert (C : (length (filter f ts) <= nsum (fun x => length (filter (held_by r x) (filter f ts))) (filter P info))%nat).
    { apply (cover_count (held_by r)). intros t Ht. apply filter_In in Ht. destruct Ht as [_ Ht]. apply existsb_exists in Ht. exact Ht. }
    rewrite <- (Nat2N.id (nsum _ _)) in C. rewrite <- nsumN_nsum in C. eapply N.le_trans; [|apply nsumN_le; intros x Hx; apply (higher_part r x v t0 (filter f ts)); [apply filter_In in Hx; apply Hx|apply NoDup_filter; exact NDT|intros t Ht; apply filter_In in Ht; apply IT, Ht]]. lia. }
  assert (LO : N.of_nat (length (filter (fun t => negb (f t)) ts)) <= fold_left N.max (map (fun p => response_time_for r v (fst p) (snd p) false) (filter (lower tsk) (concat (both info)))) 0).
  { assert (HL : forall t, In t (filter (fun t => negb (f t)) ts) -> exists a x, In a (tr r) /\ (cr_start a <= t0)%Z /\ (t0 <= t < cr_end a)%Z /\ In x info /\ cr_task a = ti_id x /\ ti_id x <> ti_id tsk /\ ti_prio tsk <= ti_prio x).
    { intros t Ht. apply filter_In in Ht. destruct Ht as [T1 T2]. apply negb_true_iff in T2. destruct (HO t T1) as [a [x [A1 [A2 [X1 [X2 X3]]]]]]. exists a, x.
      assert (PX : ti_prio tsk < ti_prio x).
      { destruct (N.lt_trichotomy (ti_prio x) (ti_prio tsk)) as [Y|[Y|Y]]; [|exfalso; apply X3; f_equal; apply prio_inj; assumption|exact Y]. exfalso. apply not_true_iff_false in T2. apply T2. apply existsb_exists. exists x.
        split; [|apply held_by_spec; exists a; auto]. apply filter_In. split; [exact X1|]. unfold P. rewrite andb_true_iff, negb_true_iff, Nat.eqb_neq, N.ltb_lt. auto. }
      specialize (IT t T1). repeat split; try assumption; try lia. destruct (Z_le_dec (cr_start a) t0) as [Y|Y]; [exact Y|exfalso].
      assert (PR := mp_priority _ _ _ _ _ _ EX r a b A1 B ltac:(unfold t0 in *; lia)). unfold tprio in PR. rewrite X2, TB, (info_nth info W x X1), (info_nth info W tsk HT) in PR. lia. }
    destruct (filter (fun t => negb (f t)) ts) as [|t1 l1] eqn:E; [cbn [length]; lia|]. rewrite <- E in *.
    destruct (HL t1 ltac:(rewrite E; left; reflexivity)) as [a [x [A1 [A2 [A3 [X1 [X2 [X3 X4]]]]]]]]. destruct (request_of r a x A1 X1 X2) as [q [Q1 Q2]].
    assert (HB := hold_bound r a x q A1 X1 X2 Q1 Q2).
    assert (ZL := zlist_length (cr_start a) (cr_end a) (filter (fun t => negb (f t)) ts) (NoDup_filter _ NDT)).
    assert (CV : forall t, In t (filter (fun t => negb (f t)) ts) -> (cr_start a <= t < cr_end a)%Z).
    { intros t Ht. destruct (HL t Ht) as [a' [x' [B1 [B2 [B3 _]]]]]. assert (DEC : {a = a'} + {a <> a'}) by (repeat decide equality). destruct DEC as [->|NE]; [lia|]. destruct (mp_mutex _ _ _ _ _ _ EX r a a' A1 B1 NE) as [M|M]; lia. }
    specialize (ZL CV). apply N.le_trans with (hold_time x q); [lia|].
    apply fold_max_ge. apply in_map_iff. exists (x, times_of info ceilings x). cbn [fst snd]. split; [rewrite <- Q2; apply (times_value x q false v X1 Q1)|].
    apply filter_In. split; [|unfold lower, others; cbn [fst]; rewrite andb_true_iff, !negb_true_iff, Nat.eqb_neq, N.ltb_ge; auto]. rewrite concat_both. fold ceilings. apply in_map_iff. exists x. split; [reflexivity|].
    apply (Permutation_in _ (Permutation_sym (clusters_perm info))). exact X1. }
  fold P in FX. lia.
Qed.

(** ** One job *)
Section Job.
Context (tsk : taskinfo) (k : nat).
Hypothesis Htsk : In tsk info.
Hypothesis FIT : fits_uint info tsk.
Let i := ti_id tsk.

Lemma tcpu_i : tcpu info i = ti_cluster tsk.
Proof. unfold tcpu, i. rewrite (info_nth info W tsk Htsk). reflexivity. Qed.

(** ** The requests of the job *)
Definition own : list (nat * creq) := concat (map (fun q => map (pair (q_res q)) (filter (is_job i k) (tr (q_res q)))) (ti_requests tsk)).

Lemma in_own r b : In (r, b) own <-> In b (tr r) /\ cr_task b = i /\ cr_job b = k.
Proof.
  unfold own. rewrite in_concat. split.
  - intros [l [H1 H2]]. apply in_map_iff in H1. destruct H1 as [q [<- Hq]]. apply in_map_iff in H2. destruct H2 as [b' [E Hb]]. injection E as <- <-. apply filter_In in Hb.
    destruct Hb as [B1 B2]. unfold is_job in B2. apply andb_true_iff in B2. rewrite !Nat.eqb_eq in B2. tauto.
  - intros [H1 [H2 H3]]. destruct (source info rel comp exec tr W LR r b H1) as [rb [R1 [R2 [R3 R4]]]]. apply in_all_requests in R1. destruct R1 as [R1 R5].
    assert (E : rb_task rb = tsk) by (apply (info_inj info W); [exact R1|exact Htsk|unfold i in H2; congruence]). exists (map (pair r) (filter (is_job i k) (tr r))). split.
    + apply in_map_iff. exists (rb_req rb). unfold rb_res in R3. rewrite R3. split; [reflexivity|]. rewrite <- E. exact R5.
    + apply in_map. apply filter_In. split; [exact H1|]. unfold is_job. rewrite H2, H3, !Nat.eqb_refl. reflexivity.
Qed.

Lemma own_nodup : NoDup own.
Proof.
  unfold own. apply (nodup_concat fst q_res).
  - destruct W as [_ W2]. apply (W2 tsk Htsk).
  - intros q _. apply FinFun.Injective_map_NoDup; [intros x y E; congruence|]. apply NoDup_filter. apply (mp_distinct _ _ _ _ _ _ EX).
  - intros q p _ Hp. apply in_map_iff in Hp. destruct Hp as [b [<- _]]. reflexivity.
Qed.

Lemma own_number (p : nat -> bool) : N.of_nat (length (filter (fun rb => p (fst rb)) own)) <= nsumN q_num (filter (fun q => p (q_res q)) (ti_requests tsk)).
Proof.
  unfold own. assert (Q : forall q, In q (ti_requests tsk) -> In q (ti_requests tsk)) by auto. revert Q. generalize (ti_requests tsk) at 1 3 4. intros qs.
  induction qs as [|q r IH]; intros Q; [cbn; lia|]. cbn [map concat filter]. rewrite filter_app, app_length.
  specialize (IH (fun x Hx => Q x (or_intror Hx))).
  assert (B := lr_number _ _ _ _ _ _ (LR (q_res q)) i k tsk q (info_nth info W tsk Htsk) (Q q (or_introl eq_refl)) eq_refl).
  assert (G : forall l, length (filter (fun rb : nat * creq => p (fst rb)) (map (pair (q_res q)) l)) = if p (q_res q) then length l else 0%nat).
  { induction l as [|x l IHl]; cbn [map filter fst]; [destruct (p (q_res q)); reflexivity|]. destruct (p (q_res q)) eqn:P; cbn [length]; rewrite IHl; reflexivity. }
  rewrite G. destruct (p (q_res q)); [|lia]. change (nsumN q_num (q :: filter (fun q0 => p (q_res q0)) r)) with (q_num q + nsumN q_num (filter (fun q0 => p (q_res q0)) r)). lia.
Qed.

Lemma own_times r b : In (r, b) own -> (rel i k <= cr_issue b /\ cr_issue b <= cr_start b /\ cr_start b <= cr_end b /\ cr_end b <= comp i k)%Z.
Proof.
  intros H. apply in_own in H. destruct H as [B [T K]]. pose proof (lr_times _ _ _ _ _ _ (LR r) b B). destruct (lr_job _ _ _ _ _ _ (LR r) b B) as [J1 J2]. rewrite T, K in J1, J2. lia.
Qed.

Lemma own_order r s b c : In (r, b) own -> In (s, c) own -> (r, b) = (s, c) \/ (cr_end b <= cr_issue c)%Z \/ (cr_end c <= cr_issue b)%Z.
Proof.
  intros H1 H2. apply in_own in H1, H2. assert (DEC : {(r, b) = (s, c)} + {(r, b) <> (s, c)}) by (repeat decide equality). destruct DEC as [D|NE]; [left; exact D|right].
  destruct H1 as [B [T _]], H2 as [B' [T' _]]. exact (mp_sequential _ _ _ _ _ _ EX r s b c B B' NE ltac:(congruence)).
Qed.


Definition request_value (q : reqspec) : N := match mpcp_request_blocking (q_res q) tsk (both info) with Some v => v | None => 0 end.

Lemma LIM : N.max (ti_response tsk) (ti_period tsk) <= UNLIMITED.
Proof. apply FIT. Qed.

Lemma remote_value qs : (forall q, In q qs -> In q (ti_requests tsk)) -> forall acc R, mpcp_remote_loop tsk (both info) qs acc = Some R ->
  R = UNLIMITED \/ (R = acc + nsumN (fun q => request_value q * q_num q) qs /\ forall q, In q qs -> mpcp_request_step (q_res q) tsk (both info) (request_value q) = request_value q).
Proof.
  induction qs as [|q r IH]; intros HQ acc R; cbn [mpcp_remote_loop].
  - intros E. injection E as <-. right. split; [cbn; lia|intros q []].
  - destruct (mpcp_request_blocking (q_res q) tsk (both info)) as [b0|] eqn:E; [|discriminate]. cbv zeta. assert (V : request_value q = b0) by (unfold request_value; rewrite E; reflexivity).
    unfold mpcp_request_blocking in E. cbv zeta in E. destruct (N.eqb_spec (to_uint b0) UNLIMITED) as [U|U]; [intros X; injection X as <-; left; exact U|].
    apply loop_value in E. destruct E as [->|[F1 F2]]; [exfalso; apply U; reflexivity|]. assert (TU : to_uint b0 = b0) by (unfold to_uint; apply N.mod_small; pose proof LIM as LIM'; unfold UNLIMITED in LIM'; lia). rewrite TU.
    assert (TP : to_uint (b0 * q_num q) = b0 * q_num q). { unfold to_uint. apply N.mod_small. destruct FIT as [[_ FQ] _]. specialize (FQ q (HQ q (or_introl eq_refl))). pose proof (N.mul_le_mono_r _ _ (q_num q) F2). lia. }
    rewrite TP. intros X. destruct (IH (fun p Hp => HQ p (or_intror Hp)) _ _ X) as [Y|[Y Z]]; [left; exact Y|right]. split.
    + rewrite Y. change (nsumN (fun q0 => request_value q0 * q_num q0) (q :: r)) with (request_value q * q_num q + nsumN (fun q0 => request_value q0 * q_num q0) r). rewrite V. lia.
    + intros p [<-|Hp]; [rewrite V; exact F1|apply Z; exact Hp].
Qed.

Definition waits (p : nat * creq) (t : Z) : bool := (cr_issue (snd p) <=? t)%Z && (t <? cr_start (snd p))%Z.
Definition is_suspended (t : Z) : bool := existsb (fun p => waits p t) own.
Lemma is_suspended_spec t : is_suspended t = true <-> suspended tr i k t.
Proof.
  unfold is_suspended, suspended, waits. rewrite existsb_exists. split.
  - intros [[r b] [B1 B2]]. cbn [snd] in B2. rewrite andb_true_iff, Z.leb_le, Z.ltb_lt in B2. apply in_own in B1. exists r, b. tauto.
  - intros [r [b [B1 [B2 [B3 B4]]]]]. exists (r, b). split; [apply in_own; auto|]. cbn [snd]. rewrite andb_true_iff, Z.leb_le, Z.ltb_lt. exact B4.
Qed.

Lemma remote_safe R ts : mpcp_remote_blocking tsk (both info) = Some R -> NoDup ts -> (forall t, In t ts -> suspended tr i k t) -> N.of_nat (length ts) <= R.
Proof.
  intros E ND H. pose proof LIM as LIM'. destruct (remote_value _ (fun q Hq => Hq) _ _ E) as [->|[-> F]].
  - assert (ZL := zlist_length (rel i k) (comp i k) ts ND). destruct (SJ tsk Htsk) as [_ S2]. specialize (S2 k). fold i in S2.
    assert (IN : forall t, In t ts -> (rel i k <= t < comp i k)%Z). { intros t Ht. destruct (H t Ht) as [r [b [B1 [B2 [B3 B4]]]]]. pose proof (own_times r b ltac:(apply in_own; auto)). lia. }
    specialize (ZL IN). lia.
  - rewrite N.add_0_l. assert (C : (length ts <= nsum (fun p => length (filter (waits p) ts)) own)%nat).
    { apply (cover_count waits). intros t Ht. specialize (H t Ht). apply is_suspended_spec in H. apply existsb_exists in H. exact H. }
    rewrite <- (Nat2N.id (nsum _ _)) in C. rewrite <- nsumN_nsum in C. apply N.le_trans with (nsumN (fun p => N.of_nat (length (filter (waits p) ts))) own); [lia|].
    unfold own. rewrite nsumN_concat, nsumN_map. apply nsumN_le. intros q Hq. rewrite nsumN_map.
    assert (B := lr_number _ _ _ _ _ _ (LR (q_res q)) i k tsk q (info_nth info W tsk Htsk) Hq eq_refl).
    apply N.le_trans with (N.of_nat (length (filter (is_job i k) (tr (q_res q)))) * request_value q); [|rewrite N.mul_comm; apply N.mul_le_mono_l; exact B].
    assert (G : forall l, (forall b, In b l -> In b (tr (q_res q)) /\ cr_task b = i) -> nsumN (fun b => N.of_nat (length (filter (waits (q_res q, b)) ts))) l <= N.of_nat (length l) * request_value q).
    { induction l as [|b l IH]; intros Hl; [cbn; lia|]. change (nsumN (fun b => N.of_nat (length (filter (waits (q_res q, b)) ts))) (b :: l)) with (N.of_nat (length (filter (waits (q_res q, b)) ts)) + nsumN (fun b => N.of_nat (length (filter (waits (q_res q, b)) ts))) l).
      specialize (IH (fun c Hc => Hl c (or_intror Hc))). destruct (Hl b (or_introl eq_refl)) as [B1 B2]. assert (WB := wait_bound tsk (q_res q) b (request_value q) Htsk B1 B2 (F q Hq)).
      assert (ZL := zlist_length (cr_issue b) (cr_start b) (filter (waits (q_res q, b)) ts) (NoDup_filter _ ND)).
      specialize (ZL ltac:(intros t Ht; apply filter_In in Ht; destruct Ht as [_ Ht]; unfold waits in Ht; cbn [snd] in Ht; rewrite andb_true_iff, Z.leb_le, Z.ltb_lt in Ht; exact Ht)). cbn [length]. rewrite Nat2N.inj_succ. lia. }
    apply G. intros b Hb. apply filter_In in Hb. destruct Hb as [B1 B2]. unfold is_job in B2. rewrite andb_true_iff, Nat.eqb_eq in B2. tauto.
Qed.

(** ** Delays by local jobs of lower priority *)
Lemma last_point (l : list Z) z0 tau : In z0 l -> (z0 <= tau)%Z -> exists z, In z l /\ (z <= tau)%Z /\ forall y, In y l -> (y <= tau)%Z -> (y <= z)%Z.
Proof.
  revert z0. induction l as [|x r IH]; intros z0 H L; [destruct H|].
  destruct (existsb (fun y => (y <=? tau)%Z) r) eqn:E.
  - apply existsb_exists in E. destruct E as [y [Y1 Y2]]. apply Z.leb_le in Y2. destruct (IH y Y1 Y2) as [z [Z1 [Z2 Z3]]].
    destruct (Z_le_dec x tau) as [X|X]; [destruct (Z_le_dec x z) as [X'|X']|].
    + exists z. split; [right; exact Z1|]. split; [exact Z2|]. intros w [<-|Hw] Lw; [exact X'|apply Z3; assumption].
    + exists x. split; [left; reflexivity|]. split; [exact X|]. intros w [<-|Hw] Lw; [lia|]. specialize (Z3 w Hw Lw). lia.
    + exists z. split; [right; exact Z1|]. split; [exact Z2|]. intros w [<-|Hw] Lw; [lia|apply Z3; assumption].
  - assert (N : forall y, In y r -> (tau < y)%Z). { intros y Hy. destruct (Z_lt_le_dec tau y) as [X|X]; [exact X|]. exfalso. apply not_true_iff_false in E. apply E. apply existsb_exists. exists y. split; [exact Hy|apply Z.leb_le; exact X]. }
    destruct H as [->|H]; [|specialize (N z0 H); lia]. exists z0. split; [left; reflexivity|]. split; [exact L|]. intros y [<-|Hy] Ly; [lia|specialize (N y Hy); lia].
Qed.


Definition susp : list (nat * creq) := filter (fun rb => (cr_issue (snd rb) <? cr_start (snd rb))%Z) own.
Lemma in_susp r b : In (r, b) susp <-> In (r, b) own /\ (cr_issue b < cr_start b)%Z.
Proof. unfold susp. rewrite filter_In. cbn [snd]. rewrite Z.ltb_lt. reflexivity. Qed.
Definition points : list Z := rel i k :: if vs then [] else map (fun rb => cr_start (snd rb)) susp.

Lemma points_length : N.of_nat (length points) <= if vs then 1 else get_num_arrivals tsk.
Proof.
  unfold points. cbn [length]. destruct (Bool.bool_dec vs true) as [V|V]; [rewrite V; cbn; lia|]. apply not_true_is_false in V. rewrite V. rewrite map_length, Nat2N.inj_succ.
  unfold get_num_arrivals, get_total_num_requests. assert (E := fold_num_sum q_num (fun _ => true) (ti_requests tsk) 0). cbv beta iota in E. rewrite E, N.add_0_l.
  assert (O := own_number (fun _ => true)). cbv beta in O. assert (L := filter_length_le (fun rb => (cr_issue (snd rb) <? cr_start (snd rb))%Z) own). rewrite (filter_true own) in O. unfold susp. lia.
Qed.

Definition hitL (s : nat) (a : creq) : bool :=
  Nat.eqb (tcpu info (cr_task a)) (ti_cluster tsk) && (ti_prio tsk <? tprio info (cr_task a)) && existsb (fun z => (cr_issue a <=? z)%Z && (z <? cr_end a)%Z) points.

Lemma pending_ready t : pending rel comp i k t -> ready rel comp i k t.
Proof.
  intros P. split; [exact P|]. intros l L. destruct (SJ tsk Htsk) as [S1 S2]. fold i in S1, S2. specialize (S2 l). pose proof (RP tsk Htsk).
  assert (M : forall d, (rel i (S l) <= rel i (d + S l)%nat)%Z) by (induction d as [|d IH]; [cbn; lia|]; cbn [Nat.add]; specialize (S1 (d + S l)%nat); lia).
  specialize (M (k - S l)%nat). replace (k - S l + S l)%nat with k in M by lia. specialize (S1 l). unfold pending in P. lia.
Qed.

Lemma local_hit t : delayed_by_lower info rel comp sched tr i k t -> exists s a, In a (tr s) /\ hitL s a = true /\ exec s a t = true.
Proof.
  intros [tsk' [N1 [PE [NS LP]]]]. assert (tsk' = tsk) as -> by (unfold i in N1; rewrite (info_nth info W tsk Htsk) in N1; congruence).
  destruct (mp_schedule _ _ _ _ _ _ EX i k tsk t N1 (pending_ready t PE) NS) as [j [l [S1 S2]]]. specialize (LP j l S1). destruct S2 as [S2|[r [a [A1 [A2 [A3 A4]]]]]]; [lia|].
  destruct (mp_cpu _ _ _ _ _ _ EX _ _ _ _ S1) as [CP _]. subst j l. exists r, a. split; [exact A1|]. split; [|apply runs_spec; split; [exact A4|rewrite CP; exact S1]].
  unfold hitL. rewrite !andb_true_iff, Nat.eqb_eq, N.ltb_lt. split; [auto|]. apply existsb_exists. unfold pending in PE. pose proof (lr_times _ _ _ _ _ _ (LR r) a A1) as TA.
  destruct (last_point points (rel i k) t (or_introl eq_refl) (proj1 PE)) as [z [Z1 [Z2 Z3]]]. exists z. split; [exact Z1|]. rewrite andb_true_iff, Z.leb_le, Z.ltb_lt. split; [|lia].
  destruct (Z_le_dec (cr_issue a) z) as [L|L]; [exact L|exfalso]. pose proof (Z3 (rel i k) (or_introl eq_refl) (proj1 PE)) as RZ.
  assert (PT : vs = false -> forall s b, In b (tr s) -> cr_task b = i -> cr_job b = k -> (cr_issue b < cr_start b)%Z -> (cr_issue b <= t)%Z -> (cr_start b <= z)%Z).
  { intros V s b B1 B2 B3 B4 B5. assert (B6 : (cr_start b <= t)%Z). { destruct (Z_le_dec (cr_start b) t) as [Y|Y]; [exact Y|exfalso]. apply NS. exists s, b. repeat split; try assumption; lia. }
    apply Z3; [|exact B6]. right. rewrite V. apply in_map_iff. exists (s, b). split; [reflexivity|]. apply in_susp. split; [apply in_own; auto|exact B4]. }
  destruct (mp_lower _ _ _ _ _ _ EX i k tsk r a N1 A1 CP LP) as [X|[V [s [b [B1 [B2 [B3 [B4 B5]]]]]]]].
  - apply pending_ready. unfold pending. lia.
  - destruct (Bool.bool_dec vs true) as [V|V]; [left; exact V|right]. apply not_true_is_false in V. intros [s [b [B1 [B2 [B3 B4]]]]]. specialize (PT V s b B1 B2 B3 ltac:(lia) ltac:(lia)). lia.
  - lia.
  - specialize (PT V s b B1 B2 B3 B5 ltac:(lia)). lia.
Qed.

Lemma arrivals_value : get_num_arrivals tsk = fold_right (fun q n => q_num q + n) 1 (ti_requests tsk).
Proof.
  unfold get_num_arrivals, get_total_num_requests. assert (E := fold_num_sum q_num (fun _ => true) (ti_requests tsk) 0). cbv beta iota in E. rewrite E, N.add_0_l, filter_true.
  clear. induction (ti_requests tsk) as [|q r IH]; [reflexivity|]. cbn [fold_right]. rewrite <- IH. change (nsumN q_num (q :: r)) with (q_num q + nsumN q_num r). lia.
Qed.
Lemma max_length_le t : get_max_request_length t <= fold_right (fun q m => N.max (q_len q) m) 0 (ti_requests t).
Proof.
  unfold get_max_request_length. assert (G : forall l m, fold_left (fun len q => N.max len (q_len q)) l m <= N.max m (fold_right (fun q m => N.max (q_len q) m) 0 l)).
  { induction l as [|q r IH]; intros m; cbn [fold_left fold_right]; [lia|]. specialize (IH (N.max m (q_len q))). lia. }
  specialize (G (ti_requests t) 0). lia.
Qed.
Lemma fold_uint (f : taskinfo -> N) p l : forall b, b + nsumN f (filter p l) <= 4294967295 -> fold_left (fun b t => if p t then to_uint (b + f t) else b) l b = b + nsumN f (filter p l).
Proof.
  induction l as [|x r IH]; intros b H; cbn [fold_left filter]; [cbn; lia|]. cbn [filter] in H. destruct (p x); [|apply IH; exact H].
  change (nsumN f (x :: filter p r)) with (f x + nsumN f (filter p r)) in *. assert (E : to_uint (b + f x) = b + f x) by (unfold to_uint; apply N.mod_small; lia). rewrite E, IH by lia. lia.
Qed.
Lemma local_fits p : (get_num_arrivals tsk * nsumN get_max_request_length (filter p (in_cluster (ti_cluster tsk) info)) <= 4294967295 /\ 1 <= get_num_arrivals tsk)%N.
Proof.
  split; [|unfold get_num_arrivals; lia]. destruct FIT as [_ F]. rewrite arrivals_value. eapply N.le_trans; [apply N.mul_le_mono_l|exact F].
  eapply N.le_trans; [apply nsumN_filter_le|]. eapply N.le_trans; [unfold in_cluster; apply nsumN_filter_le|]. pose proof max_length_le as ML. clear - ML. induction info as [|x r IH]; [cbn; lia|].
  change (nsumN get_max_request_length (x :: r)) with (get_max_request_length x + nsumN get_max_request_length r). cbn [fold_right]. pose proof (ML x). lia.
Qed.

Lemma local_sum : mpcp_arrival_blocking tsk (nth (ti_cluster tsk) (split_by_cluster info 0) []) vs =
  nsumN (fun x => (if vs then 1 else get_num_arrivals tsk) * get_max_request_length x) (filter (fun x => negb (Nat.eqb (ti_id x) (ti_id tsk)) && (ti_prio tsk <=? ti_prio x)) (in_cluster (ti_cluster tsk) info)).
Proof.
  unfold mpcp_arrival_blocking. cbv zeta. set (P := fun x => negb (Nat.eqb (ti_id x) (ti_id tsk)) && (ti_prio tsk <=? ti_prio x)). destruct (local_fits P) as [L1 L2].
  assert (L3 : nsumN get_max_request_length (filter P (in_cluster (ti_cluster tsk) info)) <= 4294967295) by (set (X := nsumN _ _) in *; pose proof (N.mul_le_mono_r _ _ X L2); lia).
  rewrite split_by_cluster_nth, (fold_uint get_max_request_length P), N.add_0_l by lia.
  set (l := filter _ _) in *. destruct (Bool.bool_dec vs true) as [V|V]; [rewrite V|apply not_true_is_false in V; rewrite V].
  - apply nsumN_ext. intros; lia.
  - unfold to_uint. rewrite N.mod_small by lia. rewrite <- nsumN_mul. apply nsumN_ext. intros; lia.
Qed.

Lemma local_safe ts : NoDup ts -> (forall t, In t ts -> delayed_by_lower info rel comp sched tr i k t) ->
  N.of_nat (length ts) <= mpcp_arrival_blocking tsk (nth (ti_cluster tsk) (split_by_cluster info 0) []) vs.
Proof.
  intros ND H. set (cont := all_requests (in_cluster (ti_cluster tsk) info)).
  eapply N.le_trans; [apply (charge info rel comp exec tr W LR hitL cont ts runs_times); [|exact ND|]|].
  - intros rb Hrb. unfold cont, in_cluster in Hrb. rewrite all_requests_filter in Hrb. apply filter_In in Hrb. apply Hrb.
  - intros t Ht. destruct (local_hit t (H t Ht)) as [s [a [C1 [C2 C3]]]]. destruct (source info rel comp exec tr W LR s a C1) as [rb [R1 [R2 [R3 R4]]]]. exists rb, a.
    pose proof C2 as C2'. unfold hitL in C2'. rewrite !andb_true_iff, Nat.eqb_eq in C2'. destruct C2' as [[NL _] _]. split; [|split].
    + unfold cont, in_cluster. rewrite all_requests_filter, filter_In, Nat.eqb_eq. split; [exact R1|]. unfold tcpu in NL. rewrite R4 in NL. exact NL.
    + apply in_hits. rewrite R3. split; [exact C1|]. split; [congruence|]. exact C2.
    + rewrite R3. exact C3.
  - rewrite local_sum. set (P := fun x => negb (Nat.eqb (ti_id x) (ti_id tsk)) && (ti_prio tsk <=? ti_prio x)). unfold cont. rewrite all_requests_sum, (nsumN_filter_split _ P).
    set (A := nsumN _ (filter P _)). set (B := nsumN _ (filter (fun a => negb (P a)) _)). assert (ZB : B = 0).
    { unfold B. rewrite (nsumN_ext _ (fun _ => 0)); [apply nsumN_zero|]. intros x Hx. apply filter_In in Hx. destruct Hx as [Hx PX]. unfold in_cluster in Hx. apply filter_In in Hx. destruct Hx as [Hx _].
      rewrite (nsumN_ext _ (fun _ => 0)); [apply nsumN_zero|]. intros rb Hrb. unfold nhits. destruct (hits tr hitL rb) as [|a l] eqn:X; [reflexivity|exfalso].
      assert (Ha : In a (hits tr hitL rb)) by (rewrite X; left; reflexivity). apply in_hits in Ha. destruct Ha as [_ [T HB]]. unfold hitL in HB. rewrite !andb_true_iff, N.ltb_lt in HB.
      apply in_map_iff in Hrb. destruct Hrb as [q [<- _]]. cbn [rb_task] in T. unfold tprio in HB. rewrite T, (info_nth info W x Hx) in HB. unfold P in PX. rewrite negb_true_iff, andb_false_iff, negb_false_iff, Nat.eqb_eq, N.leb_gt in PX.
      destruct PX as [PX|PX]; [|lia]. rewrite (info_inj info W x tsk Hx Htsk PX) in HB. lia. }
    rewrite ZB, N.add_0_r. unfold A. apply nsumN_le. intros x Hx. apply filter_In in Hx. destruct Hx as [Hx PX]. unfold in_cluster in Hx. apply filter_In in Hx. destruct Hx as [Hx _]. apply weighted.
    + eapply N.le_trans; [|apply points_length]. apply points_number; [exact Hx|]. intros s a C1 C2 C3. unfold hitL in C3. rewrite !andb_true_iff in C3. destruct C3 as [_ C3].
      apply existsb_exists in C3. destruct C3 as [z [Z1 Z2]]. rewrite andb_true_iff, Z.leb_le, Z.ltb_lt in Z2. exists z. auto.
    + intros rb Hrb _. apply in_map_iff in Hrb. destruct Hrb as [q [<- Hq]]. apply max_length_ge. exact Hq.
Qed.

Lemma total_safe R ts : mpcp_remote_blocking tsk (both info) = Some R -> NoDup ts -> (forall t, In t ts -> suspended tr i k t \/ delayed_by_lower info rel comp sched tr i k t) ->
  N.of_nat (length ts) <= R + mpcp_arrival_blocking tsk (nth (ti_cluster tsk) (split_by_cluster info 0) []) vs.
Proof.
  intros E ND H. rewrite (length_split is_suspended ts), Nat2N.inj_add. apply N.add_le_mono.
  - apply (remote_safe R _ E (NoDup_filter _ ND)). intros t Ht. apply filter_In in Ht. apply is_suspended_spec. apply Ht.
  - apply local_safe; [apply NoDup_filter; exact ND|]. intros t Ht. apply filter_In in Ht. destruct Ht as [T1 T2]. apply negb_true_iff in T2. destruct (H t T1) as [X|X]; [|exact X]. apply is_suspended_spec in X. congruence.
Qed.
End Job.
End Exec.
