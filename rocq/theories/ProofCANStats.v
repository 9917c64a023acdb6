(** Lemmas for C77. *)
From Coq Require Import ZArith List Bool Lia Sorting.Sorted.
From Verif Require Import ModelCANStats SpecCANStats.
Import ListNotations.
Open Scope Z_scope.

(** ** is_commission *)

Lemma commission_hits : forall a b fs, StronglySorted Z.le fs ->
  fst (is_commission a b fs) = Nat.leb 1 (hits a b fs) /\
  hits a b (snd (is_commission a b fs)) = pred (hits a b fs) /\
  StronglySorted Z.le (snd (is_commission a b fs)).
Proof.
  intros a b fs H. induction H as [|f r H IH Hf]; [cbn; auto using SSorted_nil|].
  cbn [is_commission]. destruct (b <? f) eqn:E1.
  - apply Z.ltb_lt in E1.
    assert (Z0 : hits a b (f :: r) = 0%nat).
    { unfold hits. rewrite (proj2 (length_zero_iff_nil _)); [reflexivity|].
      cbn [filter]. replace (f <=? b) with false by (symmetry; apply Z.leb_gt; lia). rewrite andb_false_r.
      clear - Hf E1. induction Hf as [|x r Hx Hr IH]; [reflexivity|]. cbn [filter].
      replace (x <=? b) with false by (symmetry; apply Z.leb_gt; lia). rewrite andb_false_r. exact IH. }
    cbn [fst snd]. rewrite Z0. split; [reflexivity|]. split; [reflexivity|constructor; assumption].
  - destruct ((a <=? f) && (f <=? b)) eqn:E2.
    + cbn [fst snd]. unfold hits. cbn [filter]. rewrite E2. cbn. auto.
    + unfold hits in *. cbn [filter]. rewrite E2. exact IH.
Qed.

Lemma commission_bad : forall cr a b fs, StronglySorted Z.le fs ->
  fst (commission cr a b fs) = cr && Nat.leb 1 (hits a b fs) /\
  fst (commission cr a b (snd (commission cr a b fs))) = cr && Nat.leb 2 (hits a b fs).
Proof.
  intros cr a b fs H. unfold commission. destruct cr; [|auto]. cbn [andb].
  destruct (commission_hits a b fs H) as (A & B & C). split; [exact A|].
  destruct (commission_hits a b _ C) as (A' & _). rewrite A', B. destruct (hits a b fs) as [|[|n]]; reflexivity.
Qed.

Lemma commission_incl : forall cr a b fs, incl (snd (commission cr a b fs)) fs.
Proof.
  intros cr a b fs. unfold commission. destruct cr; [|apply incl_refl].
  induction fs as [|f r IH]; [apply incl_refl|]. cbn [is_commission].
  destruct (b <? f); [apply incl_refl|]. destruct ((a <=? f) && (f <=? b)); [apply incl_tl, incl_refl|apply incl_tl, IH].
Qed.

(** ** the list of active rounds *)

Definition before (a b : round) : Prop := rd_seqno a < rd_seqno b.

Lemma find_app : forall q l1 l2, find_round q (l1 ++ l2) = match find_round q l1 with Some r => Some r | None => find_round q l2 end.
Proof. intros q l1 l2. induction l1 as [|r l1 IH]; [reflexivity|]. cbn. destruct (rd_seqno r =? q); auto. Qed.

Lemma find_none : forall q l, (forall e, In e l -> rd_seqno e <> q) -> find_round q l = None.
Proof.
  intros q l H. induction l as [|r l IH]; [reflexivity|]. cbn. destruct (rd_seqno r =? q) eqn:E.
  - apply Z.eqb_eq in E. exfalso. apply (H r); [left; reflexivity|exact E].
  - apply IH. intros e He. apply H. right. exact He.
Qed.

Lemma sorted_app : forall l r, StronglySorted before (l ++ [r]) <-> StronglySorted before l /\ forall e, In e l -> rd_seqno e < rd_seqno r.
Proof.
  induction l as [|a l IH]; intros r; cbn [app].
  - split; [intros _; split; [constructor|intros ? []]|intros _; constructor; constructor].
  - split.
    + intros H. inversion H as [|? ? H1 H2]; subst. apply IH in H1. destruct H1 as (A & B). rewrite Forall_forall in H2.
      split; [constructor; [exact A|rewrite Forall_forall; intros x Hx; apply H2, in_or_app; auto]|].
      intros e [<-|He]; [apply H2, in_or_app; cbn; auto|auto].
    + intros (H & B). inversion H as [|? ? H1 H2]; subst. rewrite Forall_forall in H2. constructor.
      * apply IH. split; [exact H1|]. intros e He. apply B. right. exact He.
      * rewrite Forall_forall. intros x Hx. apply in_app_or in Hx. destruct Hx as [Hx|[<-|[]]]; [apply H2, Hx|apply B; left; reflexivity].
Qed.

Lemma add_last : forall q l, StronglySorted before l -> (forall e, In e l -> rd_seqno e <= q) ->
  exists l0 a b, add_round q l = l0 ++ [Round q a b] /\ StronglySorted before l0 /\
    (forall e, In e l0 -> rd_seqno e < q) /\ incl l0 l /\
    (forall q', q' <> q -> find_round q' l0 = find_round q' l) /\
    (find_round q l = Some (Round q a b) \/ find_round q l = None /\ a = 0%nat /\ b = 0%nat).
Proof.
  intros q l Hs Hle. unfold add_round. destruct (rev l) as [|back t] eqn:E.
  - assert (l = []) by (rewrite <- (rev_involutive l), E; reflexivity). subst.
    exists [], 0%nat, 0%nat. split; [reflexivity|]. split; [constructor|]. split; [intros ? []|].
    split; [apply incl_refl|]. split; [reflexivity|]. right. auto.
  - assert (El : l = rev t ++ [back]) by (rewrite <- (rev_involutive l), E; reflexivity).
    rewrite El in *. clear E El. apply sorted_app in Hs. destruct Hs as (Hs & Hlt).
    assert (Hb : rd_seqno back <= q) by (apply Hle, in_or_app; cbn; auto).
    destruct (rd_seqno back <? q) eqn:E1.
    + apply Z.ltb_lt in E1. exists (rev t ++ [back]), 0%nat, 0%nat.
      assert (Hall : forall e, In e (rev t ++ [back]) -> rd_seqno e < q).
      { intros e He. apply in_app_or in He. destruct He as [He|[<-|[]]]; [specialize (Hlt _ He); lia|exact E1]. }
      split; [reflexivity|]. split; [apply sorted_app; split; assumption|]. split; [exact Hall|].
      split; [apply incl_refl|]. split; [reflexivity|]. right. split; [|auto].
      apply find_none. intros e He. specialize (Hall e He). lia.
    + apply Z.ltb_ge in E1. destruct back as [s a b]. cbn in *. assert (s = q) by lia. subst s.
      exists (rev t), a, b. split; [reflexivity|]. split; [exact Hs|]. split; [exact Hlt|].
      split; [apply incl_appl, incl_refl|]. split.
      * intros q' Hq. rewrite find_app. cbn. replace (q =? q') with false by (symmetry; apply Z.eqb_neq; lia).
        destruct (find_round q' (rev t)); reflexivity.
      * left. rewrite find_app. rewrite find_none by (intros e He; specialize (Hlt e He); lia). cbn. rewrite Z.eqb_refl. reflexivity.
Qed.

Lemma count_last : forall q com l a b, (forall e, In e l -> rd_seqno e < q) ->
  count_message q com (l ++ [Round q a b]) = l ++ [if com then Round q a (S b) else Round q (S a) b].
Proof.
  intros q com l a b H. induction l as [|r l IH]; cbn [app count_message].
  - cbn. rewrite Z.eqb_refl. reflexivity.
  - replace (rd_seqno r =? q) with false by (symmetry; apply Z.eqb_neq; specialize (H r (or_introl eq_refl)); lia).
    rewrite IH; [reflexivity|]. intros e He. apply H. right. exact He.
Qed.

Lemma erase_last : forall q l r, (forall e, In e l -> rd_seqno e < q) -> rd_seqno r = q -> erase_round q (l ++ [r]) = l.
Proof.
  intros q l r H E. induction l as [|x l IH]; cbn [app erase_round].
  - rewrite E, Z.eqb_refl. reflexivity.
  - replace (rd_seqno x =? q) with false by (symmetry; apply Z.eqb_neq; specialize (H x (or_introl eq_refl)); lia).
    rewrite IH; [reflexivity|]. intros e He. apply H. right. exact He.
Qed.

Lemma find_last : forall q l r, (forall e, In e l -> rd_seqno e < q) -> rd_seqno r = q -> find_round q (l ++ [r]) = Some r.
Proof.
  intros q l r H E. rewrite find_app, find_none by (intros e He; specialize (H e He); lia). cbn. rewrite E, Z.eqb_refl. reflexivity.
Qed.

Lemma erase_incl : forall q l, incl (erase_round q l) l.
Proof.
  intros q l. induction l as [|r l IH]; [apply incl_refl|]. cbn. destruct (rd_seqno r =? q); [apply incl_tl, incl_refl|].
  apply incl_cons; [left; reflexivity|]. apply incl_tl, IH.
Qed.

Lemma erase_find : forall q q' l, q' <> q -> find_round q' (erase_round q l) = find_round q' l.
Proof.
  intros q q' l Hq. induction l as [|r l IH]; [reflexivity|]. cbn. destruct (rd_seqno r =? q) eqn:E.
  - apply Z.eqb_eq in E. replace (rd_seqno r =? q') with false by (symmetry; apply Z.eqb_neq; lia). reflexivity.
  - cbn. rewrite IH. reflexivity.
Qed.

Lemma erase_sorted : forall q l, StronglySorted before l -> StronglySorted before (erase_round q l).
Proof.
  intros q l H. induction H as [|r l H IH Hf]; [constructor|]. cbn. destruct (rd_seqno r =? q); [assumption|].
  constructor; [exact IH|]. rewrite Forall_forall in *. intros x Hx. apply Hf, (erase_incl q l), Hx.
Qed.

(** ** the rounds that are recorded *)

(** above [latest], the record of a round counts its messages *)
Record tracks (cr : bool) (need : nat) (h : list call) (i : info) : Prop := {
  tr_sorted : StronglySorted before (active i);
  tr_from : forall e, In e (active i) -> exists r t fs, In (CallCompleted (rd_seqno e) r t fs) h;
  tr_find : forall q, latest i < q ->
    find_round q (active i) =
    if Nat.eqb (good_msgs cr need q h + bad_msgs cr need q h) 0 then None
    else Some (Round q (good_msgs cr need q h) (bad_msgs cr need q h)) }.

Lemma good_snoc : forall cr need q h c, good_msgs cr need q (h ++ [c]) =
  (good_msgs cr need q h + if is_message q c && negb (bad cr need c) then 1 else 0)%nat.
Proof. intros. unfold good_msgs. rewrite filter_app, app_length. cbn. destruct (is_message q c && negb (bad cr need c)); reflexivity. Qed.
Lemma bad_snoc : forall cr need q h c, bad_msgs cr need q (h ++ [c]) =
  (bad_msgs cr need q h + if is_message q c && bad cr need c then 1 else 0)%nat.
Proof. intros. unfold bad_msgs. rewrite filter_app, app_length. cbn. destruct (is_message q c && bad cr need c); reflexivity. Qed.

Lemma good_late : forall cr need q h q' coin, good_msgs cr need q (h ++ [CallExpired q' coin]) = good_msgs cr need q h.
Proof. intros. rewrite good_snoc. cbn. lia. Qed.
Lemma bad_late : forall cr need q h q' coin, bad_msgs cr need q (h ++ [CallExpired q' coin]) = bad_msgs cr need q h.
Proof. intros. rewrite bad_snoc. cbn. lia. Qed.

Lemma tracks_nil : forall cr need, tracks cr need [] init_info.
Proof. intros. constructor; cbn; [constructor|intros ? []|reflexivity]. Qed.

(** a message below [latest] *)
Lemma tracks_skip : forall cr need h i q r t fs, tracks cr need h i -> q <= latest i ->
  tracks cr need (h ++ [CallCompleted q r t fs]) i.
Proof.
  intros cr need h i q r t fs [A B C] Hq. constructor; [exact A| |].
  - intros e He. destruct (B e He) as (r' & t' & fs' & H). exists r', t', fs'. apply in_or_app. auto.
  - intros q' Hq'. rewrite good_snoc, bad_snoc. cbn [is_message]. replace (q =? q') with false by (symmetry; apply Z.eqb_neq; lia).
    cbn [andb]. rewrite !Nat.add_0_r. apply C, Hq'.
Qed.

(** a message above: the record of its round comes last *)
Lemma tracks_message : forall cr need h i q r t fs, tracks cr need h i -> latest i < q ->
  (forall q' r' t' fs', In (CallCompleted q' r' t' fs') h -> q' <= q) ->
  exists l0 a b, add_round q (active i) = l0 ++ [Round q a b] /\ (forall e, In e l0 -> rd_seqno e < q) /\
    a = good_msgs cr need q h /\ b = bad_msgs cr need q h /\
    (forall com ok faulty, com = bad cr need (CallCompleted q r t fs) ->
       tracks cr need (h ++ [CallCompleted q r t fs])
         (Info (latest i) ok faulty (l0 ++ [if com then Round q a (S b) else Round q (S a) b]))) /\
    (forall ok faulty, tracks cr need (h ++ [CallCompleted q r t fs]) (Info q ok faulty l0)).
Proof.
  intros cr need h i q r t fs [A B C] Hq Hord.
  destruct (add_last q (active i) A) as (l0 & a & b & E & Hs & Hlt & Hin & Hfind & Hq0).
  { intros e He. destruct (B e He) as (r' & t' & fs' & H). eapply Hord. exact H. }
  exists l0, a, b. split; [exact E|]. split; [exact Hlt|].
  assert (Hab : a = good_msgs cr need q h /\ b = bad_msgs cr need q h).
  { specialize (C q Hq). destruct (Nat.eqb (good_msgs cr need q h + bad_msgs cr need q h) 0) eqn:E0.
    - apply Nat.eqb_eq in E0. destruct Hq0 as [Hq0|(Hq0 & -> & ->)]; [congruence|lia].
    - destruct Hq0 as [Hq0|(Hq0 & _)]; [|congruence]. rewrite Hq0 in C. injection C as -> ->. auto. }
  destruct Hab as (Ha & Hb). split; [exact Ha|]. split; [exact Hb|].
  assert (Hfrom : forall e, In e l0 -> exists r' t' fs', In (CallCompleted (rd_seqno e) r' t' fs') (h ++ [CallCompleted q r t fs])).
  { intros e He. destruct (B e (Hin e He)) as (r' & t' & fs' & H). exists r', t', fs'. apply in_or_app. auto. }
  split.
  - intros com ok faulty Ecom. constructor; cbn [active latest].
    + apply sorted_app. split; [exact Hs|]. destruct com; exact Hlt.
    + intros e He. apply in_app_or in He. destruct He as [He|[<-|[]]]; [apply Hfrom, He|].
      exists r, t, fs. apply in_or_app. right. destruct com; left; reflexivity.
    + intros q' Hq'. rewrite good_snoc, bad_snoc. cbn [is_message]. rewrite <- Ecom. destruct (Z.eq_dec q' q) as [->|N].
      * rewrite Z.eqb_refl. rewrite find_last; [|exact Hlt|destruct com; reflexivity].
        rewrite <- Ha, <- Hb. destruct com; cbn [andb negb].
        -- replace (Nat.eqb (a + 0 + (b + 1)) 0) with false by (symmetry; apply Nat.eqb_neq; lia). f_equal. f_equal; lia.
        -- replace (Nat.eqb (a + 1 + (b + 0)) 0) with false by (symmetry; apply Nat.eqb_neq; lia). f_equal. f_equal; lia.
      * replace (q =? q') with false by (symmetry; apply Z.eqb_neq; lia). cbn [andb]. rewrite !Nat.add_0_r.
        rewrite <- (C q' Hq'), <- (Hfind q' N), find_app. destruct (find_round q' l0); [reflexivity|].
        destruct com; cbn; replace (q =? q') with false by (symmetry; apply Z.eqb_neq; lia); reflexivity.
  - intros ok faulty. constructor; cbn [active latest]; [exact Hs|exact Hfrom|].
    intros q' Hq'. rewrite good_snoc, bad_snoc. cbn [is_message]. replace (q =? q') with false by (symmetry; apply Z.eqb_neq; lia).
    cbn [andb]. rewrite !Nat.add_0_r. rewrite Hfind by lia. apply C. lia.
Qed.

(** ** both statistics, over all calls *)

Definition settled (cr : bool) (need quorum : nat) (q : Z) (h : list call) : Prop :=
  expired_from q h \/ agreed_from cr need quorum q h.

Lemma expired_snoc : forall q h c, expired_from q (h ++ [c]) <->
  expired_from q h \/ match c with CallExpired q' _ => q <= q' | _ => False end.
Proof.
  intros q h c. split.
  - intros (q' & coin & Hin & Hle). apply in_app_or in Hin. destruct Hin as [Hin|[->|[]]]; [left; exists q', coin; auto|right; exact Hle].
  - intros [(q' & coin & Hin & Hle)|H]; [exists q', coin; split; [apply in_or_app; auto|exact Hle]|].
    destruct c as [|q' coin]; [contradiction|]. exists q', coin. split; [apply in_or_app; cbn; auto|exact H].
Qed.

Lemma agreed_late : forall cr need quorum q h q' coin,
  agreed_from cr need quorum q (h ++ [CallExpired q' coin]) <-> agreed_from cr need quorum q h.
Proof.
  intros. unfold agreed_from. split; intros (x & Hx & G); exists x; (split; [exact Hx|]).
  - rewrite good_late in G. exact G.
  - rewrite good_late. exact G.
Qed.

(** what the entries hold after the calls h *)
Record both (cr : bool) (rprime : nat) (h : list call) (s : info * info) : Prop := {
  bo_sync : tracks cr 1 h (fst s);
  bo_async : tracks cr 2 h (snd s);
  bo_ls : forall q, 1 <= q -> (q <= latest (fst s) <-> expired_from q h);
  bo_la : forall q, 1 <= q -> (q <= latest (snd s) <-> settled cr 2 (local_rprime cr rprime) q h);
  bo_pos : 0 <= latest (fst s) /\ 0 <= latest (snd s) }.

Lemma both_le : forall cr rprime h s, both cr rprime h s -> latest (fst s) <= latest (snd s).
Proof.
  intros cr rprime h s [_ _ A B (P & P')]. destruct (Z.eq_dec (latest (fst s)) 0); [lia|].
  apply B; [lia|]. left. apply A; lia.
Qed.

(** a message of a round above [latest] *)
Lemma sync_step : forall cr q r t fs fs0 i h, tracks cr 1 h i -> latest i < q ->
  (forall q' r' t' fs', In (CallCompleted q' r' t' fs') h -> q' <= q) ->
  fst (commission cr r t fs0) = bad cr 1 (CallCompleted q r t fs) ->
  let p := job_completed_sync cr q r t fs0 i in
  tracks cr 1 (h ++ [CallCompleted q r t fs]) (fst p) /\ n_faulty (fst p) = n_faulty i /\
  n_ok (fst p) = n_ok i /\ latest (fst p) = latest i /\ snd p = snd (commission cr r t fs0).
Proof.
  intros cr q r t fs fs0 i h T Hq Hord Hbad.
  destruct (tracks_message cr 1 h i q r t fs T Hq Hord) as (l0 & a & b & E & Hlt & Ha & Hb & T1 & _).
  unfold job_completed_sync. replace (q <=? latest i) with false by (symmetry; apply Z.leb_gt; lia).
  cbv zeta. rewrite E, find_last by (assumption || reflexivity).
  destruct (commission cr r t fs0) as (com, left) eqn:Ec. cbn [fst snd] in *. rewrite count_last by assumption.
  split; [apply T1; exact Hbad|]. cbn. auto.
Qed.

Lemma async_step : forall cr rprime q r t fs fs0 i h, tracks cr 2 h i -> latest i < q ->
  (forall q' r' t' fs', In (CallCompleted q' r' t' fs') h -> q' <= q) ->
  fst (commission cr r t fs0) = bad cr 2 (CallCompleted q r t fs) ->
  let g := good_msgs cr 2 q (h ++ [CallCompleted q r t fs]) in
  let i' := fst (job_completed_async cr rprime q r t fs0 i) in
  tracks cr 2 (h ++ [CallCompleted q r t fs]) i' /\ n_faulty i' = n_faulty i /\
  if Nat.leb (local_rprime cr rprime) g then latest i' = q /\ n_ok i' = S (n_ok i)
  else latest i' = latest i /\ n_ok i' = n_ok i.
Proof.
  intros cr rprime q r t fs fs0 i h T Hq Hord Hbad.
  destruct (tracks_message cr 2 h i q r t fs T Hq Hord) as (l0 & a & b & E & Hlt & Ha & Hb & T1 & T2).
  cbv zeta. unfold job_completed_async. replace (q <=? latest i) with false by (symmetry; apply Z.leb_gt; lia).
  cbv zeta. rewrite E, find_last by (assumption || reflexivity).
  destruct (commission cr r t fs0) as (com, left) eqn:Ec. cbn [fst snd] in Hbad. rewrite count_last by assumption.
  rewrite find_last by (assumption || destruct com; reflexivity).
  rewrite erase_last by (assumption || destruct com; reflexivity).
  assert (Eg : rd_ok (if com then Round q a (S b) else Round q (S a) b) = good_msgs cr 2 q (h ++ [CallCompleted q r t fs])).
  { rewrite good_snoc. cbn [is_message]. rewrite Z.eqb_refl, <- Hbad, <- Ha. destruct com; cbn; lia. }
  rewrite Eg. destruct (Nat.leb (local_rprime cr rprime) (good_msgs cr 2 q (h ++ [CallCompleted q r t fs]))); cbn [fst latest n_ok n_faulty].
  - split; [apply T2|]. auto.
  - split; [apply T1; exact Hbad|]. auto.
Qed.

(** messages of a round that later ones have settled change nothing *)
Lemma agreed_message : forall cr need quorum h q r t fs x,
  (quorum <= good_msgs cr need q (h ++ [CallCompleted q r t fs]))%nat \/ agreed_from cr need quorum x h ->
  x <= q -> agreed_from cr need quorum x (h ++ [CallCompleted q r t fs]).
Proof.
  intros cr need quorum h q r t fs x [H|(q' & Hx & H)] Hle; [exists q; auto|].
  exists q'. split; [exact Hx|]. rewrite good_snoc. lia.
Qed.

Lemma settled_message : forall cr need quorum h q r t fs x,
  settled cr need quorum x (h ++ [CallCompleted q r t fs]) <->
  settled cr need quorum x h \/ (x <= q /\ (quorum <= good_msgs cr need q (h ++ [CallCompleted q r t fs]))%nat).
Proof.
  intros. unfold settled. rewrite expired_snoc. split.
  - intros [[H|[]]|(q' & Hx & H)]; [tauto|]. destruct (Z.eq_dec q' q) as [->|N]; [tauto|].
    left. right. exists q'. split; [exact Hx|]. rewrite good_snoc in H. cbn [is_message] in H.
    replace (q =? q') with false in H by (symmetry; apply Z.eqb_neq; lia). cbn in H. lia.
  - intros [[H|(q' & Hx & H)]|(Hx & H)]; [tauto| |right; exists q; auto].
    right. exists q'. split; [exact Hx|]. rewrite good_snoc. lia.
Qed.

Lemma settled_late : forall cr need quorum h q coin x,
  settled cr need quorum x (h ++ [CallExpired q coin]) <-> settled cr need quorum x h \/ x <= q.
Proof. intros. unfold settled. rewrite expired_snoc, agreed_late. tauto. Qed.

Lemma tracks_late : forall cr need h i q coin ok faulty, tracks cr need h i -> latest i < q ->
  tracks cr need (h ++ [CallExpired q coin]) (Info q ok faulty (active i)) /\
  tracks cr need (h ++ [CallExpired q coin]) (Info q ok faulty (erase_round q (active i))).
Proof.
  intros cr need h i q coin ok faulty [A B C] Hq. split; constructor; cbn [active latest].
  - exact A.
  - intros e He. destruct (B e He) as (r' & t' & fs' & H). exists r', t', fs'. apply in_or_app. auto.
  - intros q' Hq'. rewrite good_late, bad_late. apply C. lia.
  - apply erase_sorted, A.
  - intros e He. destruct (B e (erase_incl _ _ e He)) as (r' & t' & fs' & H). exists r', t', fs'. apply in_or_app. auto.
  - intros q' Hq'. rewrite good_late, bad_late, erase_find by lia. apply C. lia.
Qed.

Lemma tracks_old : forall cr need h i q coin, tracks cr need h i -> tracks cr need (h ++ [CallExpired q coin]) i.
Proof.
  intros cr need h i q coin [A B C]. constructor; [exact A| |].
  - intros e He. destruct (B e He) as (r' & t' & fs' & H). exists r', t', fs'. apply in_or_app. auto.
  - intros q' Hq'. rewrite good_late, bad_late. apply C. exact Hq'.
Qed.

(** a step that reports a message *)
Lemma both_message : forall cr rprime h s q r t fs, both cr rprime h s -> StronglySorted Z.le fs ->
  (forall q' r' t' fs', In (CallCompleted q' r' t' fs') h -> q' <= q) ->
  let s' := stats_call cr rprime s (CallCompleted q r t fs) in
  both cr rprime (h ++ [CallCompleted q r t fs]) s' /\
  n_ok (fst s') = n_ok (fst s) /\ n_faulty (fst s') = n_faulty (fst s) /\
  n_faulty (snd s') = n_faulty (snd s) /\
  (if (latest (snd s) <? q) && Nat.leb (local_rprime cr rprime) (good_msgs cr 2 q (h ++ [CallCompleted q r t fs]))
   then n_ok (snd s') = S (n_ok (snd s)) else n_ok (snd s') = n_ok (snd s)).
Proof.
  intros cr rprime h s q r t fs B Hfs Hord. pose proof (both_le _ _ _ _ B) as Hle.
  destruct B as [T1 T2 L1 L2 (P1 & P2)]. destruct s as (s, a). cbn [fst snd] in *.
  cbv zeta. unfold stats_call, stats_completed. cbn [fst snd].
  destruct (commission_bad cr r t fs Hfs) as (C1 & C2).
  assert (X1 : forall i : info, (forall x, 1 <= x -> (x <= latest i <-> expired_from x h)) ->
    forall x, 1 <= x -> (x <= latest i <-> expired_from x (h ++ [CallCompleted q r t fs]))).
  { intros i H x Hx. rewrite expired_snoc, (H x Hx). tauto. }
  destruct (Z_lt_le_dec (latest a) q) as [Ha|Ha].
  - destruct (sync_step cr q r t fs fs s h T1 ltac:(lia) Hord C1) as (S1 & S2 & S3 & S4 & S5).
    destruct (job_completed_sync cr q r t fs s) as (s', left). cbn [fst snd] in *. subst left.
    pose proof (async_step cr rprime q r t fs (snd (commission cr r t fs)) a h T2 Ha Hord C2) as A. cbv zeta in A.
    destruct (job_completed_async cr rprime q r t (snd (commission cr r t fs)) a) as (a', left). cbn [fst snd] in *.
    destruct A as (A1 & A2 & A3).
    replace (latest a <? q) with true by (symmetry; apply Z.ltb_lt; exact Ha). cbn [andb].
    destruct (Nat.leb (local_rprime cr rprime) (good_msgs cr 2 q (h ++ [CallCompleted q r t fs]))) eqn:G.
    + apply Nat.leb_le in G. destruct A3 as (A3 & A4). split; [|auto]. constructor; cbn [fst snd]; [exact S1|exact A1| | |lia].
      * rewrite S4. apply X1, L1.
      * intros x Hx. rewrite settled_message, A3, <- (L2 x Hx). lia.
    + apply Nat.leb_gt in G. destruct A3 as (A3 & A4). split; [|auto]. constructor; cbn [fst snd]; [exact S1|exact A1| | |lia].
      * rewrite S4. apply X1, L1.
      * intros x Hx. rewrite settled_message, A3, <- (L2 x Hx). lia.
  - replace (latest a <? q) with false by (symmetry; apply Z.ltb_ge; exact Ha). cbn [andb].
    assert (EA : forall fs0, job_completed_async cr rprime q r t fs0 a = (a, fs0)).
    { intros fs0. unfold job_completed_async. replace (q <=? latest a) with true by (symmetry; apply Z.leb_le; exact Ha). reflexivity. }
    assert (LA : forall x, 1 <= x -> (x <= latest a <-> settled cr 2 (local_rprime cr rprime) x (h ++ [CallCompleted q r t fs]))).
    { intros x Hx. rewrite settled_message, <- (L2 x Hx). lia. }
    destruct (Z_lt_le_dec (latest s) q) as [Hs|Hs].
    + destruct (sync_step cr q r t fs fs s h T1 Hs Hord C1) as (S1 & S2 & S3 & S4 & S5).
      destruct (job_completed_sync cr q r t fs s) as (s', left). cbn [fst snd] in *. rewrite EA. cbn [fst snd].
      split; [|auto]. constructor; cbn [fst snd]; [exact S1|apply tracks_skip; assumption| |exact LA|lia].
      rewrite S4. apply X1, L1.
    + unfold job_completed_sync. replace (q <=? latest s) with true by (symmetry; apply Z.leb_le; exact Hs). rewrite EA. cbn [fst snd].
      split; [|auto]. constructor; cbn [fst snd]; [apply tracks_skip; assumption|apply tracks_skip; assumption| |exact LA|lia].
      apply X1, L1.
Qed.

(** a step that reports a deadline *)
Lemma both_late : forall cr rprime h s q coin, both cr rprime h s ->
  let s' := stats_call cr rprime s (CallExpired q coin) in
  both cr rprime (h ++ [CallExpired q coin]) s' /\ n_ok (snd s') = n_ok (snd s) /\
  (if latest (snd s) <? q then n_faulty (snd s') = S (n_faulty (snd s)) else n_faulty (snd s') = n_faulty (snd s)) /\
  (if latest (fst s) <? q
   then let good := good_msgs cr 1 q h in let bad := bad_msgs cr 1 q h in
        if Nat.ltb bad good || (Nat.eqb good bad && Nat.ltb 0 good && negb coin)
        then n_ok (fst s') = S (n_ok (fst s)) /\ n_faulty (fst s') = n_faulty (fst s)
        else n_ok (fst s') = n_ok (fst s) /\ n_faulty (fst s') = S (n_faulty (fst s))
   else n_ok (fst s') = n_ok (fst s) /\ n_faulty (fst s') = n_faulty (fst s)).
Proof.
  intros cr rprime h s q coin B. pose proof (both_le _ _ _ _ B) as Hle.
  destruct B as [T1 T2 L1 L2 (P1 & P2)]. destruct s as (s, a). cbn [fst snd] in *.
  cbv zeta. cbn [stats_call fst snd].
  assert (HA : let a' := job_deadline_expired_async q a in
    tracks cr 2 (h ++ [CallExpired q coin]) a' /\ n_ok a' = n_ok a /\ latest a' = Z.max (latest a) q /\
    (if latest a <? q then n_faulty a' = S (n_faulty a) else n_faulty a' = n_faulty a)).
  { cbv zeta. unfold job_deadline_expired_async. destruct (Z.leb_spec q (latest a)) as [H|H].
    - replace (latest a <? q) with false by (symmetry; apply Z.ltb_ge; exact H). split; [apply tracks_old, T2|]. split; [reflexivity|]. split; [lia|reflexivity].
    - replace (latest a <? q) with true by (symmetry; apply Z.ltb_lt; exact H). split; [apply tracks_late; assumption|]. cbn. split; [reflexivity|]. split; [lia|reflexivity]. }
  assert (HS : let s' := job_deadline_expired_sync coin q s in
    tracks cr 1 (h ++ [CallExpired q coin]) s' /\ latest s' = Z.max (latest s) q /\
    (if latest s <? q
     then if Nat.ltb (bad_msgs cr 1 q h) (good_msgs cr 1 q h) || (Nat.eqb (good_msgs cr 1 q h) (bad_msgs cr 1 q h) && Nat.ltb 0 (good_msgs cr 1 q h) && negb coin)
          then n_ok s' = S (n_ok s) /\ n_faulty s' = n_faulty s
          else n_ok s' = n_ok s /\ n_faulty s' = S (n_faulty s)
     else n_ok s' = n_ok s /\ n_faulty s' = n_faulty s)).
  { cbv zeta. unfold job_deadline_expired_sync. destruct (Z.leb_spec q (latest s)) as [H|H].
    - replace (latest s <? q) with false by (symmetry; apply Z.ltb_ge; exact H). split; [apply tracks_old, T1|]. split; [lia|auto].
    - replace (latest s <? q) with true by (symmetry; apply Z.ltb_lt; exact H).
      rewrite (tr_find _ _ _ _ T1 q H). set (g := good_msgs cr 1 q h). set (b := bad_msgs cr 1 q h).
      destruct (Nat.eqb_spec (g + b) 0) as [E0|E0].
      + split; [apply tracks_late; assumption|]. cbn [latest n_ok n_faulty]. split; [lia|].
        assert (g = 0%nat /\ b = 0%nat) as (-> & ->) by lia. cbn. auto.
      + cbn [rd_ok rd_faulty]. destruct (Nat.ltb_spec b g) as [Hbg|Hbg]; cbn [orb].
        * split; [apply tracks_late; assumption|]. cbn [latest n_ok n_faulty]. split; [lia|auto].
        * destruct (Nat.eqb_spec g b) as [Egb|Egb]; cbn [andb].
          -- replace (Nat.ltb 0 g) with true by (symmetry; apply Nat.ltb_lt; lia). destruct coin; cbn [andb negb];
               (split; [apply tracks_late; assumption|]; cbn [latest n_ok n_faulty]; split; [lia|auto]).
          -- split; [apply tracks_late; assumption|]. cbn [latest n_ok n_faulty]. split; [lia|auto]. }
  cbv zeta in HA, HS. destruct HA as (A1 & A2 & A3 & A4). destruct HS as (S1 & S2 & S3).
  split; [|auto]. constructor; cbn [fst snd]; [exact S1|exact A1| | |lia].
  - intros x Hx. rewrite expired_snoc, S2, <- (L1 x Hx). lia.
  - intros x Hx. rewrite settled_late, A3, <- (L2 x Hx). lia.
Qed.

Lemma stats_snoc : forall cr rprime h c, stats_run cr rprime (h ++ [c]) = stats_call cr rprime (stats_run cr rprime h) c.
Proof. intros. unfold stats_run. rewrite fold_left_app. reflexivity. Qed.

Lemma good_nil : forall cr need q, good_msgs cr need q [] = 0%nat.
Proof. reflexivity. Qed.

Lemma both_run : forall cr rprime h, in_order h -> (1 <= rprime)%nat -> both cr rprime h (stats_run cr rprime h).
Proof.
  intros cr rprime h H Hr. induction H as [|h q r t fs H IH Hfs Hord|h q coin H IH].
  - constructor; cbn; [apply tracks_nil|apply tracks_nil| | |lia].
    + intros q Hq. split; [lia|]. intros (q' & coin & [] & _).
    + intros q Hq. split; [lia|]. intros [(q' & coin & [] & _)|(q' & _ & G)]. rewrite good_nil in G.
      unfold local_rprime in G. destruct cr; lia.
  - rewrite stats_snoc. apply both_message; assumption.
  - rewrite stats_snoc. apply both_late; assumption.
Qed.

(** ** whatever the order of the calls *)

Lemma info_step_sync : forall cr q r t fs i, 
  let i' := fst (job_completed_sync cr q r t fs i) in latest i' = latest i /\ n_ok i' = n_ok i /\ n_faulty i' = n_faulty i.
Proof.
  intros cr q r t fs i. cbv zeta. unfold job_completed_sync. destruct (q <=? latest i); [auto|].
  cbv zeta. destruct (find_round q (add_round q (active i))); [|auto]. destruct (commission cr r t fs). auto.
Qed.

Lemma info_step_async : forall cr rprime q r t fs i,
  let i' := fst (job_completed_async cr rprime q r t fs i) in
  (latest i' = latest i /\ n_ok i' = n_ok i /\ n_faulty i' = n_faulty i) \/
  (latest i < q /\ latest i' = q /\ n_ok i' = S (n_ok i) /\ n_faulty i' = n_faulty i).
Proof.
  intros cr rprime q r t fs i. cbv zeta. unfold job_completed_async. destruct (Z.leb_spec q (latest i)); [auto|].
  cbv zeta. destruct (find_round q (add_round q (active i))); [|auto]. destruct (commission cr r t fs) as (com, left).
  destruct (find_round q (count_message q com (add_round q (active i)))) as [x|]; [|auto].
  destruct (Nat.leb (local_rprime cr rprime) (rd_ok x)); [right|left]; auto.
Qed.

Lemma info_late_sync : forall coin q i,
  let i' := job_deadline_expired_sync coin q i in
  (q <= latest i /\ i' = i) \/
  (latest i < q /\ latest i' = q /\ (n_ok i' + n_faulty i' = S (n_ok i + n_faulty i))%nat).
Proof.
  intros coin q i. cbv zeta. unfold job_deadline_expired_sync. destruct (Z.leb_spec q (latest i)); [auto|].
  right. split; [assumption|]. destruct (find_round q (active i)) as [x|]; [|cbn; split; [reflexivity|lia]].
  destruct (Nat.ltb (rd_faulty x) (rd_ok x)); [cbn; split; [reflexivity|lia]|].
  destruct (Nat.eqb (rd_ok x) (rd_faulty x)); [destruct coin|]; cbn; (split; [reflexivity|lia]).
Qed.

Lemma info_late_async : forall q i,
  let i' := job_deadline_expired_async q i in
  (q <= latest i /\ i' = i) \/
  (latest i < q /\ latest i' = q /\ (n_ok i' + n_faulty i' = S (n_ok i + n_faulty i))%nat).
Proof.
  intros q i. cbv zeta. unfold job_deadline_expired_async. destruct (Z.leb_spec q (latest i)); [auto|].
  right. split; [assumption|]. cbn. split; [reflexivity|lia].
Qed.
