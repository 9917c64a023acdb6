(** C77: the statistics of the CAN bus simulator. *)
From Coq Require Import ZArith List Bool Lia Sorting.Sorted.
From Verif Require Import Base ModelCANSim SpecCANSim ProofCANSim PropCANSim ModelCANStats SpecCANStats ProofCANStats.
Import ListNotations.
Open Scope Z_scope.

(** whatever is reported in whatever order, both protocols count distinct rounds
    in increasing order: none is counted twice, or as successful and failed *)
Theorem C77_once : forall critical rprime h (i : info),
  i = fst (stats_run critical rprime h) \/ i = snd (stats_run critical rprime h) ->
  exists rounds, StronglySorted Z.lt rounds /\ length rounds = (n_ok i + n_faulty i)%nat /\
    forall q, In q rounds -> 1 <= q /\ In q (map call_seqno h).
Proof.
  intros cr rprime h.
  assert (Snoc : forall l q, StronglySorted Z.lt l -> (forall x, In x l -> x < q) -> StronglySorted Z.lt (l ++ [q])).
  { intros l q H. induction H as [|a l H IH Hf]; intros Hq; cbn [app]; [constructor; constructor|].
    constructor; [apply IH; intros x Hx; apply Hq; right; exact Hx|].
    rewrite Forall_forall in *. intros x Hx. apply in_app_or in Hx. destruct Hx as [Hx|[<-|[]]]; [apply Hf, Hx|apply Hq; left; reflexivity]. }
  assert (G : forall i, i = fst (stats_run cr rprime h) \/ i = snd (stats_run cr rprime h) ->
    exists rounds, StronglySorted Z.lt rounds /\ length rounds = (n_ok i + n_faulty i)%nat /\ 0 <= latest i /\
      forall q, In q rounds -> 1 <= q <= latest i /\ In q (map call_seqno h)).
  { induction h as [|c h IH] using rev_ind.
    - intros i Hi. exists []. cbn in Hi. split; [constructor|]. assert (i = init_info) by tauto. subst i. cbn.
      split; [reflexivity|]. split; [lia|]. intros q [].
    - rewrite stats_snoc. revert IH. generalize (stats_run cr rprime h). intros s IH.
      assert (Step : forall i i', i = fst s \/ i = snd s ->
        (latest i' = latest i /\ (n_ok i' + n_faulty i' = n_ok i + n_faulty i)%nat) \/
        (latest i < latest i' /\ latest i' = call_seqno c /\ (n_ok i' + n_faulty i' = S (n_ok i + n_faulty i))%nat) ->
        exists rounds, StronglySorted Z.lt rounds /\ length rounds = (n_ok i' + n_faulty i')%nat /\ 0 <= latest i' /\
          forall q, In q rounds -> 1 <= q <= latest i' /\ In q (map call_seqno (h ++ [c]))).
      { intros i i' Hi Hs. destruct (IH i Hi) as (rounds & R1 & R2 & R3 & R4). destruct Hs as [(L & N)|(L & Lc & N)].
        - exists rounds. split; [exact R1|]. split; [lia|]. split; [lia|]. intros q Hq. destruct (R4 q Hq) as (A & B).
          split; [lia|]. rewrite map_app. apply in_or_app. auto.
        - exists (rounds ++ [call_seqno c]). split; [apply Snoc; [exact R1|intros x Hx; specialize (R4 x Hx); lia]|].
          split; [rewrite app_length; cbn; lia|]. split; [lia|]. rewrite map_app.
          intros q Hq. apply in_app_or in Hq. destruct Hq as [Hq|[<-|[]]].
          + destruct (R4 q Hq) as (A & B). split; [lia|]. apply in_or_app. auto.
          + split; [lia|]. apply in_or_app. cbn. auto. }
      destruct c as [q r t fs|q coin]; intros i Hi.
      + destruct s as (sy, a). cbn [stats_call] in Hi. unfold stats_completed in Hi. cbn [fst snd] in *.
        pose proof (info_step_sync cr q r t fs sy) as A. cbv zeta in A.
        destruct (job_completed_sync cr q r t fs sy) as (s', left). cbn [fst] in A.
        pose proof (info_step_async cr rprime q r t left a) as B. cbv zeta in B.
        destruct (job_completed_async cr rprime q r t left a) as (a', left'). cbn [fst snd] in *.
        destruct Hi as [-> | ->].
        * apply (Step sy); [auto|]. left. lia.
        * apply (Step a); [auto|]. cbn [call_seqno]. lia.
      + destruct s as (sy, a). cbn [stats_call fst snd] in *. destruct Hi as [-> | ->].
        * apply (Step sy); [auto|]. pose proof (info_late_sync coin q sy) as A. cbv zeta in A.
          destruct A as [(_ & ->)|A]; [left; auto|right]. cbn [call_seqno]. lia.
        * apply (Step a); [auto|]. pose proof (info_late_async q a) as A. cbv zeta in A.
          destruct A as [(_ & ->)|A]; [left; auto|right]. cbn [call_seqno]. lia. }
  intros i Hi. destruct (G i Hi) as (rounds & A & B & _ & D). exists rounds. split; [exact A|]. split; [exact B|].
  intros q Hq. specialize (D q Hq). split; [lia|tauto].
Qed.
Print Assumptions C77_once.

(** synchronous protocol: messages decide nothing; the first report of the deadline
    of a round, unless that of a later one came first, decides by the majority of
    the messages so far; a round with no message fails; the coin decides a draw *)
Theorem C77_sync : forall critical rprime h c,
  in_order (h ++ [c]) -> in_order h -> (1 <= rprime)%nat ->
  let i := fst (stats_run critical rprime h) in
  let i' := fst (stats_run critical rprime (h ++ [c])) in
  match c with
  | CallCompleted _ _ _ _ => n_ok i' = n_ok i /\ n_faulty i' = n_faulty i
  | CallExpired q coin =>
      let good := good_msgs critical 1 q h in
      let corrupted := bad_msgs critical 1 q h in
      (1 <= q -> ~ expired_from q h ->
        ((corrupted < good)%nat -> n_ok i' = S (n_ok i) /\ n_faulty i' = n_faulty i) /\
        ((good < corrupted)%nat \/ (good + corrupted = 0)%nat -> n_ok i' = n_ok i /\ n_faulty i' = S (n_faulty i)) /\
        (good = corrupted -> (0 < good)%nat ->
           if coin then n_ok i' = n_ok i /\ n_faulty i' = S (n_faulty i) else n_ok i' = S (n_ok i) /\ n_faulty i' = n_faulty i)) /\
      (expired_from q h -> n_ok i' = n_ok i /\ n_faulty i' = n_faulty i)
  end.
Proof.
  intros cr rprime h c Hc Hh Hr. cbv zeta. rewrite stats_snoc. pose proof (both_run cr rprime h Hh Hr) as B.
  destruct c as [q r t fs|q coin].
  - inversion Hc as [E|h0 q0 r0 t0 fs0 H0 Hfs Hord E|h0 q0 coin0 H0 E].
    + destruct h; discriminate.
    + apply app_inj_tail in E. destruct E as (-> & E). injection E as -> -> -> ->.
      destruct (both_message cr rprime h _ q r t fs B Hfs Hord) as (_ & A1 & A2 & _). auto.
    + apply app_inj_tail in E. destruct E as (_ & E). discriminate.
  - destruct (both_late cr rprime h _ q coin B) as (_ & _ & _ & S1). cbv zeta in S1.
    pose proof (bo_ls _ _ _ _ B q) as L. destruct (Z.ltb_spec (latest (fst (stats_run cr rprime h))) q) as [Hl|Hl].
    + split.
      * intros Hq _. set (g := good_msgs cr 1 q h) in *. set (b := bad_msgs cr 1 q h) in *.
        destruct (Nat.ltb_spec b g) as [Hbg|Hbg]; cbn [orb] in S1.
        -- split; [intros _; exact S1|]. split; [lia|]. intros; lia.
        -- split; [lia|]. destruct (Nat.eqb_spec g b) as [E|E]; cbn [andb] in S1.
           ++ destruct (Nat.ltb_spec 0 g) as [Hg|Hg]; cbn [andb] in S1.
              ** split; [lia|]. intros _ _. destruct coin; exact S1.
              ** split; [intros _; exact S1|]. intros; lia.
           ++ split; [intros _; exact S1|]. intros; lia.
      * intros Hx. destruct (Z_le_gt_dec 1 q) as [Hq|Hq]; [|pose proof (bo_pos _ _ _ _ B); lia].
        apply (L Hq) in Hx. lia.
    + split; [|intros _; exact S1]. intros Hq Hx. exfalso. apply Hx, L; assumption.
Qed.
Print Assumptions C77_sync.

(** asynchronous protocol: the message that completes the quorum of its round makes
    it successful if neither its deadline nor a later round came first; the report
    of the deadline makes it fail otherwise. A message of a critical task counts as
    corrupted only if its host failed twice. *)
Theorem C77_async : forall (critical : bool) rprime h c,
  in_order (h ++ [c]) -> in_order h -> (1 <= rprime)%nat ->
  let quorum := if critical then rprime else 1%nat in
  let i : info := snd (stats_run critical rprime h) in
  let i' := snd (stats_run critical rprime (h ++ [c])) in
  match c with
  | CallCompleted q _ _ _ =>
      n_faulty i' = n_faulty i /\
      (1 <= q -> ~ (expired_from q h \/ agreed_from critical 2 quorum q h) -> (quorum <= good_msgs critical 2 q (h ++ [c]))%nat -> n_ok i' = S (n_ok i)) /\
      ((expired_from q h \/ agreed_from critical 2 quorum q h) \/ (good_msgs critical 2 q (h ++ [c]) < quorum)%nat -> n_ok i' = n_ok i)
  | CallExpired q _ =>
      n_ok i' = n_ok i /\
      (1 <= q -> ~ (expired_from q h \/ agreed_from critical 2 quorum q h) -> n_faulty i' = S (n_faulty i)) /\ (1 <= q -> expired_from q h \/ agreed_from critical 2 quorum q h -> n_faulty i' = n_faulty i)
  end.
Proof.
  intros cr rprime h c Hc Hh Hr. cbv zeta. rewrite stats_snoc. pose proof (both_run cr rprime h Hh Hr) as B.
  change (if cr then rprime else 1%nat) with (local_rprime cr rprime).
  assert (L : forall q, 1 <= q -> (q <= latest (snd (stats_run cr rprime h)) <->
    expired_from q h \/ agreed_from cr 2 (local_rprime cr rprime) q h)) by (intros q; apply (bo_la _ _ _ _ B)).
  pose proof (bo_pos _ _ _ _ B) as (_ & P).
  destruct c as [q r t fs|q coin].
  - inversion Hc as [E|h0 q0 r0 t0 fs0 H0 Hfs Hord E|h0 q0 coin0 H0 E].
    + destruct h; discriminate.
    + apply app_inj_tail in E. destruct E as (-> & E). injection E as -> -> -> ->.
      destruct (both_message cr rprime h _ q r t fs B Hfs Hord) as (_ & _ & _ & A1 & A2).
      split; [exact A1|]. destruct (Z.ltb_spec (latest (snd (stats_run cr rprime h))) q) as [Hl|Hl]; cbn [andb] in A2.
      * destruct (Nat.leb_spec (local_rprime cr rprime) (good_msgs cr 2 q (h ++ [CallCompleted q r t fs]))) as [G|G].
        -- split; [intros _ _ _; exact A2|]. intros [O|O]; [|lia]. apply L in O; lia.
        -- split; [intros _ _ O; lia|intros _; exact A2].
      * split; [|intros _; exact A2]. intros Hq O. exfalso. apply O, L; assumption.
    + apply app_inj_tail in E. destruct E as (_ & E). discriminate.
  - destruct (both_late cr rprime h _ q coin B) as (_ & A1 & A2 & _). split; [exact A1|].
    destruct (Z.ltb_spec (latest (snd (stats_run cr rprime h))) q) as [Hl|Hl].
    + split; [intros _ _; exact A2|]. intros Hq O. apply L in O; lia.
    + split; [|intros _ _; exact A2]. intros Hq O. exfalso. apply O, L; assumption.
Qed.
Print Assumptions C77_async.

(** so failures of hosts are invisible to the asynchronous statistics unless a host
    fails twice between the release and the reception of one message *)
Lemma good_without : forall cr q h, (forall q r t fs, In (CallCompleted q r t fs) h -> (hits r t fs <= 1)%nat) ->
  good_msgs cr 2 q (map without_failures h) = good_msgs cr 2 q h.
Proof.
  intros cr q h H. induction h as [|c h IH]; [reflexivity|].
  assert (E : is_message q (without_failures c) && negb (bad cr 2 (without_failures c)) = is_message q c && negb (bad cr 2 c)).
  { destruct c as [k r t fs|k coin]; [|reflexivity]. cbn [without_failures is_message bad].
    specialize (H k r t fs (or_introl eq_refl)). destruct (hits r t fs) as [|[|n]]; [| |lia]; cbn; rewrite andb_false_r; reflexivity. }
  unfold good_msgs in *. cbn [map filter]. rewrite E.
  assert (IH' := IH (fun q r t fs Hin => H q r t fs (or_intror Hin))).
  destruct (is_message q c && negb (bad cr 2 c)); cbn [length]; lia.
Qed.

Lemma in_order_without : forall h, in_order h -> in_order (map without_failures h).
Proof.
  intros h H. induction H as [|h q r t fs H IH Hfs Hord|h q coin H IH]; cbn [map]; [constructor| |]; rewrite map_app; cbn [map without_failures].
  - constructor; [exact IH|constructor|]. intros q' r' t' fs' Hin. apply in_map_iff in Hin. destruct Hin as (c & Ec & Hc).
    destruct c as [k r0 t0 fs0|]; [|discriminate]. cbn in Ec. injection Ec as -> _ _ _. eapply Hord. exact Hc.
  - constructor. exact IH.
Qed.

Theorem C77_async_blind : forall critical rprime h, in_order h -> (1 <= rprime)%nat ->
  (forall q r t fs, In (CallCompleted q r t fs) h -> (hits r t fs <= 1)%nat) ->
  let i : info := snd (stats_run critical rprime h) in
  let i' := snd (stats_run critical rprime (map without_failures h)) in
  n_ok i = n_ok i' /\ n_faulty i = n_faulty i'.
Proof.
  intros cr rprime h Ho Hr H1. cbv zeta.
  assert (G : n_ok (snd (stats_run cr rprime h)) = n_ok (snd (stats_run cr rprime (map without_failures h))) /\
    n_faulty (snd (stats_run cr rprime h)) = n_faulty (snd (stats_run cr rprime (map without_failures h))) /\
    latest (snd (stats_run cr rprime h)) = latest (snd (stats_run cr rprime (map without_failures h)))); [|tauto].
  assert (Lat : forall h, in_order h -> (forall q r t fs, In (CallCompleted q r t fs) h -> (hits r t fs <= 1)%nat) ->
    latest (snd (stats_run cr rprime h)) = latest (snd (stats_run cr rprime (map without_failures h)))).
  { clear h Ho H1. intros h Ho H1. pose proof (both_run cr rprime h Ho Hr) as B.
    pose proof (both_run cr rprime _ (in_order_without h Ho) Hr) as B'.
    assert (E : forall q, 1 <= q -> (q <= latest (snd (stats_run cr rprime h)) <-> q <= latest (snd (stats_run cr rprime (map without_failures h))))).
    { intros q Hq. rewrite (bo_la _ _ _ _ B q Hq), (bo_la _ _ _ _ B' q Hq). unfold settled, agreed_from.
      assert (Ee : expired_from q h <-> expired_from q (map without_failures h)).
      { split; intros (q' & coin & Hin & Hle); exists q', coin; (split; [|exact Hle]).
        - apply in_map_iff. exists (CallExpired q' coin). auto.
        - apply in_map_iff in Hin. destruct Hin as (c & Ec & Hc). destruct c; [discriminate|]. cbn in Ec. congruence. }
      rewrite Ee. split; (intros [O|(q' & Hle & O)]; [left; exact O|right; exists q'; split; [exact Hle|]]);
        rewrite good_without in * by exact H1; exact O. }
    pose proof (bo_pos _ _ _ _ B) as (_ & P). pose proof (bo_pos _ _ _ _ B') as (_ & P').
    destruct (Z_lt_le_dec (latest (snd (stats_run cr rprime h))) 1);
      destruct (Z_lt_le_dec (latest (snd (stats_run cr rprime (map without_failures h)))) 1); [lia| | |].
    - assert (A := proj2 (E (latest (snd (stats_run cr rprime (map without_failures h)))) ltac:(lia)) ltac:(lia)). lia.
    - assert (A := proj1 (E (latest (snd (stats_run cr rprime h))) ltac:(lia)) ltac:(lia)). lia.
    - assert (A := proj2 (E (latest (snd (stats_run cr rprime (map without_failures h)))) ltac:(lia)) ltac:(lia)).
      assert (A' := proj1 (E (latest (snd (stats_run cr rprime h))) ltac:(lia)) ltac:(lia)). lia. }
  revert H1. induction Ho as [|h q r t fs H IH Hfs Hord|h q coin H IH]; intros H1; [cbn; auto| |].
  - assert (H1' : forall q r t fs, In (CallCompleted q r t fs) h -> (hits r t fs <= 1)%nat) by (intros; eapply H1; apply in_or_app; left; eassumption).
    specialize (IH H1'). split; [|split; [|apply Lat; [constructor; assumption|exact H1]]].
    all: rewrite map_app; cbn [map without_failures]; rewrite !stats_snoc;
      destruct (both_message cr rprime h _ q r t fs (both_run cr rprime h H Hr) Hfs Hord) as (_ & _ & _ & A1 & A2);
      assert (Ho' := in_order_without _ (io_msg h q r t fs H Hfs Hord)); rewrite map_app in Ho'; cbn [map without_failures] in Ho';
      assert (Hord' : forall q' r' t' fs', In (CallCompleted q' r' t' fs') (map without_failures h) -> q' <= q) by
        (intros q' r' t' fs' Hin; apply in_map_iff in Hin; destruct Hin as (c & Ec & Hc); destruct c as [k r0 t0 fs0|]; [|discriminate];
         cbn in Ec; injection Ec as -> _ _ _; eapply Hord; exact Hc);
      destruct (both_message cr rprime _ _ q r t [] (both_run cr rprime _ (in_order_without h H) Hr) ltac:(constructor) Hord') as (_ & _ & _ & A1' & A2');
      pose proof (good_without cr q (h ++ [CallCompleted q r t fs]) H1) as Eg; rewrite map_app in Eg; cbn [map without_failures] in Eg;
      rewrite Eg in A2'; destruct IH as (I1 & I2 & I3); rewrite <- I3 in A2'.
    + destruct ((latest (snd (stats_run cr rprime h)) <? q) && Nat.leb (local_rprime cr rprime) (good_msgs cr 2 q (h ++ [CallCompleted q r t fs]))); congruence.
    + congruence.
  - assert (H1' : forall q r t fs, In (CallCompleted q r t fs) h -> (hits r t fs <= 1)%nat) by (intros; eapply H1; apply in_or_app; left; eassumption).
    specialize (IH H1'). split; [|split; [|apply Lat; [constructor; assumption|exact H1]]].
    all: rewrite map_app; cbn [map without_failures]; rewrite !stats_snoc;
      destruct (both_late cr rprime h _ q coin (both_run cr rprime h H Hr)) as (_ & A1 & A2 & _);
      destruct (both_late cr rprime _ _ q coin (both_run cr rprime _ (in_order_without h H) Hr)) as (_ & A1' & A2' & _);
      destruct IH as (I1 & I2 & I3); rewrite <- I3 in A2'.
    + congruence.
    + destruct (latest (snd (stats_run cr rprime h)) <? q); congruence.
Qed.
Print Assumptions C77_async_blind.

(** for instance: the only message of a round is corrupted and the asynchronous
    statistics count the round as successful, the synchronous ones as failed *)
Theorem C77_async_corrupted_refuted : exists rprime h q r t fs coin,
  (1 <= rprime)%nat /\ h = [CallCompleted q r t fs; CallExpired q coin] /\ in_order h /\
  (exists f, In f fs /\ r <= f <= t) /\
  n_ok (snd (stats_run true rprime h)) = 1%nat /\ n_faulty (fst (stats_run true rprime h)) = 1%nat.
Proof.
  exists 1%nat, [CallCompleted 1 0 12 [5; 30]; CallExpired 1 false], 1, 0, 12, [5; 30], false.
  split; [lia|]. split; [reflexivity|]. split.
  - apply (io_late [CallCompleted 1 0 12 [5; 30]]), (io_msg []); [constructor| |intros ? ? ? ? []].
    constructor; [constructor; [constructor|constructor]|]. constructor; [lia|constructor].
  - split; [exists 5; split; [left; reflexivity|lia]|]. split; reflexivity.
Qed.
Print Assumptions C77_async_corrupted_refuted.

(** the callback takes no failure away that was not there *)
Theorem C77_callback : forall critical rprime q r t fs s,
  incl (snd (stats_completed critical rprime q r t fs s)) fs.
Proof.
  intros cr rprime q r t fs s. unfold stats_completed.
  assert (A : forall i, incl (snd (job_completed_sync cr q r t fs i)) fs).
  { intros i. unfold job_completed_sync. destruct (q <=? latest i); [apply incl_refl|]. cbv zeta.
    destruct (find_round q (add_round q (active i))); [|apply incl_refl]. pose proof (commission_incl cr r t fs) as I.
    destruct (commission cr r t fs). exact I. }
  specialize (A (fst s)). destruct (job_completed_sync cr q r t fs (fst s)) as (s', left). cbn [snd] in A.
  assert (B : forall i, incl (snd (job_completed_async cr rprime q r t left i)) left).
  { intros i. unfold job_completed_async. destruct (q <=? latest i); [apply incl_refl|]. cbv zeta.
    destruct (find_round q (add_round q (active i))); [|apply incl_refl]. pose proof (commission_incl cr r t left) as I.
    destruct (commission cr r t left) as (com, left'). cbn [snd] in I.
    destruct (find_round q (count_message q com (add_round q (active i)))); [|exact I].
    destruct (Nat.leb _ _); exact I. }
  specialize (B (snd s)). destruct (job_completed_async cr rprime q r t left (snd s)) as (a', left'). cbn [snd] in *.
  eapply incl_tran; eassumption.
Qed.
Print Assumptions C77_callback.

(** ** The order of messages in the simulator *)

Lemma run_completed : forall ts fs l b, (forall t, In t ts -> 0 < m_cost t /\ 0 < m_period t) ->
  bus_run ts fs bus_init l b -> forall t i q r, In (Completed t i q r) l -> t + 3 <= floor_of (wire b).
Proof.
  intros ts fs l b Hpos H. remember bus_init as b0. induction H as [b0|b0 l b' o b'' H IH Hs]; [intros ? ? ? ? []|].
  specialize (IH Heqb0). intros t i q r Hin. apply in_app_or in Hin. destruct Hin as [Hin|Hin]; cycle 1.
  - specialize (IH _ _ _ _ Hin). destruct Hs; cbn [wire floor_of] in *; try lia;
      match goal with |- context [m_cost (msg_task ts ?j)] => pose proof (positive_task ts j Hpos) | _ => idtac end;
      try (pose proof (positive_task ts i0 Hpos)); lia.
  - destruct Hs; cbn in Hin; repeat (destruct Hin as [Hin|Hin]); try discriminate; try contradiction.
    injection Hin as -> _ _ _. cbn [wire floor_of]. lia.
Qed.

(** replicas of a message succeed in the order of their instances *)
Theorem C77_replicas : forall fuel pick ts boot cb ab hosts faults stop st l1 l2 t' j q' r' t i q r,
  (forall t, In t ts -> 0 < m_cost t /\ 0 < m_period t) -> StronglySorted Z.le faults ->
  (forall l x, incl (cb l x) x) ->
  can_simulation fuel pick ts boot cb ab hosts faults stop = Some st ->
  clog st = l1 ++ Completed t' j q' r' :: l2 -> In (Completed t i q r) l2 ->
  m_period (msg_task ts i) = m_period (msg_task ts j) -> q <= q'.
Proof.
  intros fuel pick ts boot cb ab hf fs stop st l1 l2 t' j q' r' t i q r Hpos Hso Hcb H E Hin HP.
  destruct (C75_frames _ _ _ _ _ _ _ _ _ _ l1 l2 t' j q' r' Hpos Hso Hcb H) as (F & _). destruct (F E) as (S1 & _).
  apply in_split in Hin. destruct Hin as (k1 & k2 & Ek). pose proof E as E2. rewrite Ek in E2.
  destruct (C75_frames _ _ _ _ _ _ _ _ _ _ (l1 ++ Completed t' j q' r' :: k1) k2 t i q r Hpos Hso Hcb H) as (F2 & _).
  destruct (F2 ltac:(rewrite E2, <- app_assoc; reflexivity)) as (S2 & _).
  assert (N1 := C76_newest _ _ _ _ _ _ _ _ _ _ _ _ _ _ Hpos Hso Hcb H
    ltac:(rewrite E; apply in_or_app; right; right; exact S1)).
  assert (N2 := C76_newest _ _ _ _ _ _ _ _ _ _ _ _ _ _ Hpos Hso Hcb H
    ltac:(rewrite E2; apply in_or_app; right; right; apply in_or_app; right; right; exact S2)).
  run_of H Hpos Hso Hcb. destruct (run_split _ _ _ _ _ R _ _ _ E) as (b1 & o & b2 & m1 & m2 & R1 & B1 & Eo2).
  assert (Hfl : t + 3 <= t' - m_cost (msg_task ts j)).
  { pose proof (run_completed _ _ _ _ Hpos R1) as C.
    label B1 m1. injection Eo; intros; subst. cbn [app] in *.
    assert (Hin : In (Completed t i q r) (k1 ++ Completed t i q r :: k2)) by (apply in_or_app; right; left; reflexivity).
    rewrite Eo2 in Hin. specialize (C _ _ _ _ Hin). cbn [wire floor_of] in C. lia. }
  pose proof (positive_task ts i Hpos). rewrite HP in N2. pose proof (positive_task ts j Hpos). nia.
Qed.
Print Assumptions C77_replicas.

(** so the calls of the statistics for replicas of a message are in order *)
Theorem C77_in_order : forall fuel pick ts boot cb ab hosts faults stop st mine period h,
  (forall t, In t ts -> 0 < m_cost t /\ 0 < m_period t) -> StronglySorted Z.le faults ->
  (forall l x, incl (cb l x) x) ->
  can_simulation fuel pick ts boot cb ab hosts faults stop = Some st ->
  (forall i, mine i = true -> m_period (msg_task ts i) = period) ->
  feeds mine (clog st) h -> in_order h.
Proof.
  intros fuel pick ts boot cb ab hf fs stop st mine period h Hpos Hso Hcb H Hp Hf.
  assert (Ord : forall l1 l2 t' j q' r' t i q r, clog st = l1 ++ Completed t' j q' r' :: l2 -> In (Completed t i q r) l2 ->
    mine i = true -> mine j = true -> q <= q').
  { intros. eapply (C77_replicas fuel pick ts boot cb ab hf fs stop st l1 l2 t' j q' r' t i q r); eauto.
    rewrite (Hp i), (Hp j) by assumption. reflexivity. }
  assert (Src : forall l h, feeds mine l h -> forall q r t fs, In (CallCompleted q r t fs) h -> exists i, mine i = true /\ In (Completed t i q r) l).
  { clear. intros l h Hf. induction Hf as [|l h t i q r fs Hf IH Hm Hs|l h t i q r coin Hf IH Hm|l h o Hf IH Ho]; intros q0 r0 t0 fs0 Hin; [contradiction| | |].
    - apply in_app_or in Hin. destruct Hin as [Hin|[Hin|[]]].
      + destruct (IH _ _ _ _ Hin) as (i' & A & B). exists i'. split; [exact A|right; exact B].
      + injection Hin as <- <- <- <-. exists i. split; [exact Hm|left; reflexivity].
    - apply in_app_or in Hin. destruct Hin as [Hin|[Hin|[]]]; [|discriminate].
      destruct (IH _ _ _ _ Hin) as (i' & A & B). exists i'. split; [exact A|right; exact B].
    - destruct (IH _ _ _ _ Hin) as (i' & A & B). exists i'. split; [exact A|right; exact B]. }
  assert (Suf : exists l1, clog st = l1 ++ clog st) by (exists []; reflexivity).
  revert Suf Hf. generalize (clog st) at 2 3. intros l Suf Hf. revert Suf.
  induction Hf as [|l h t i q r fs0 Hf IH Hm Hs|l h t i q r coin Hf IH Hm|l h o Hf IH Ho]; intros (l1 & El).
  - constructor.
  - constructor; [apply IH; exists (l1 ++ [Completed t i q r]); rewrite <- app_assoc; exact El|exact Hs|].
    intros q' r' t' fs' Hin. destruct (Src _ _ Hf _ _ _ _ Hin) as (i' & A & B). eapply Ord; eassumption.
  - constructor. apply IH. exists (l1 ++ [Expired t i q r]). rewrite <- app_assoc. exact El.
  - apply IH. exists (l1 ++ [o]). rewrite <- app_assoc. exact El.
Qed.
Print Assumptions C77_in_order.

(** the calls for non-critical messages *)
Fixpoint calls_of (mine : nat -> bool) (l : list obs) : list call :=
  match l with
  | [] => []
  | Completed t i q r :: l' => if mine i then calls_of mine l' ++ [CallCompleted q r t []] else calls_of mine l'
  | Expired t i q r :: l' => if mine i then calls_of mine l' ++ [CallExpired q false] else calls_of mine l'
  | _ :: l' => calls_of mine l'
  end.

Lemma calls_feed : forall mine l, feeds mine l (calls_of mine l).
Proof.
  intros mine l. induction l as [|o l IH]; [constructor|].
  destruct o; cbn [calls_of]; try (apply fe_other; [exact IH|intros ? ? ? ? [E|E]; discriminate E]);
    destruct (mine i) eqn:E;
    first [ apply fe_done; [exact IH|exact E|constructor]
          | apply fe_late; [exact IH|exact E]
          | apply fe_other; [exact IH|intros ? ? ? ? [E2|E2]; congruence] ].
Qed.

(** the run of C76_deadline_refuted: the second instance of message 1 is received
    after its deadline and never reported late; the asynchronous statistics count
    its round as successful, the synchronous ones do not count it *)
Theorem C77_late_refuted : exists fuel pick ts boot cb ab hosts faults stop st mine h t i q r,
  (forall t, In t ts -> 0 < m_cost t /\ 0 < m_period t) /\ StronglySorted Z.le faults /\ (forall l x, cb l x = x) /\
  can_simulation fuel pick ts boot cb ab hosts faults stop = Some st /\
  (forall j, mine j = true -> m_period (msg_task ts j) = m_period (msg_task ts i)) /\ feeds mine (clog st) h /\
  (exists h1 h2, h = h1 ++ CallCompleted q r t [] :: h2 /\ r + m_deadline (msg_task ts i) < t /\
     let s := stats_run false 1 h1 in let s' := stats_run false 1 (h1 ++ [CallCompleted q r t []]) in
     n_ok (snd s') = S (n_ok (snd s)) /\
     forall coin, ~ In (CallExpired q coin) h).
Proof.
  exists 100%nat, (fun _ => 0%nat), late_set, 0, (fun _ l => l), (fun _ => false), (fun _ => []), [], 60.
  eexists. exists (fun j => Nat.eqb j 1).
  eexists. exists 23, 1%nat, 2, 10.
  split; [intros t [<-|[<-|[]]]; cbn; lia|]. split; [constructor|]. split; [reflexivity|].
  split; [vm_compute; reflexivity|]. split; [intros j Hj; apply Nat.eqb_eq in Hj; subst; reflexivity|].
  cbn [clog]. split; [apply calls_feed|].
  cbn [calls_of Nat.eqb app].
  exists [CallExpired 1 false]. eexists. split; [cbn [app]; reflexivity|].
  split; [cbn; lia|]. split; [vm_compute; reflexivity|]. intros coin. cbn. intuition discriminate.
Qed.
Print Assumptions C77_late_refuted.

(** a critical task with three replicas, two of which suffice: round 1 has one
    corrupted message and succeeds in both protocols; of round 2 only one arrives,
    a majority but not a quorum *)
Definition sample_calls : list call :=
  [CallCompleted 1 0 5 []; CallCompleted 1 0 9 [7]; CallCompleted 1 0 14 []; CallExpired 1 false; CallExpired 1 true;
   CallCompleted 2 50 55 [7]; CallExpired 2 false].

Example C77_sample : in_order sample_calls /\
  (let s := stats_run true 2 sample_calls in
   (n_ok (fst s), n_faulty (fst s), n_ok (snd s), n_faulty (snd s))) = (2, 0, 1, 1)%nat.
Proof.
  split; [|vm_compute; reflexivity]. unfold sample_calls.
  repeat match goal with |- in_order ?l =>
    let c := eval cbn in (last l (CallExpired 0 false)) in
    let h := eval cbn in (removelast l) in
    change (in_order (h ++ [c])); constructor; [|repeat constructor..|] || (change (in_order (h ++ [c])); constructor) end.
  all: try constructor; try (intros ? ? ? ? Hin; cbn in Hin; repeat (destruct Hin as [Hin|Hin]; [try discriminate Hin; injection Hin; intros; subst; lia|]); contradiction).
Qed.
