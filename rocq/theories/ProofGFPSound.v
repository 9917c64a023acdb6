(** Soundness of the recurrences of Bertogna et al. and of Guan et al. *)
From Coq Require Import ZArith List Bool Lia Permutation.
From Verif Require Import Base SpecUni SpecQPA SpecGlobal SpecGFP ProofUni ProofEDF ProofGlobal ProofGEDFRta ProofBusy ProofGFP.
Import ListNotations.
Open Scope Z_scope.

Section Sound.
  Variables (ts : list etask) (m : nat) (s : jobseq) (sc : gschedule).
  Let n := length ts.
  Hypothesis Hwf : Forall wf_etask ts.
  Hypothesis Hl : legal_edf ts s.
  Hypothesis Hv : gvalid n m s sc.
  Let C i := e_cost (et ts i).
  Let T i := e_period (et ts i).

  (** number of the k most important tasks that run in slot t *)
  Definition hpc (k t : nat) : Z := sumf (fun i => b2z (trun sc i t)) k.

  Lemma hpc_mono : forall k l t, (k <= l)%nat -> hpc k t <= hpc l t.
  Proof.
    intros k l t H. unfold hpc. replace l with (k + (l - k))%nat by lia. rewrite sumf_split.
    assert (0 <= sumf (fun i => b2z (trun sc (k + i) t)) (l - k)); [|lia].
    apply sumf_nonneg. intros i _. pose proof (b2z_range (trun sc (k + i) t)). lia.
  Qed.

  Lemma hpc_nonneg : forall k t, 0 <= hpc k t.
  Proof. intros k t. apply (hpc_mono 0 k t). lia. Qed.

  Lemma hpc_range : forall k t, 0 <= hpc k t <= Z.of_nat k.
  Proof.
    intros k t. split; [apply hpc_nonneg|]. unfold hpc. rewrite <- (Z.mul_1_l (Z.of_nat k)), <- sumf_const.
    apply sumf_le. intros. apply b2z_range.
  Qed.

  Lemma hpc_le : forall k t, (k <= n)%nat -> hpc k t <= Z.of_nat m.
  Proof.
    intros k t H. pose proof (hpc_mono k n t H). unfold hpc in H0 at 2. rewrite <- (busy_count n m s sc Hv t) in H0.
    destruct (Hv t) as [L _]. lia.
  Qed.

  Lemma trun_in : forall i t, trun sc i t = true -> exists j, In j (sc t) /\ fst j = i.
  Proof. intros i t H. apply trun_iff in H. destruct H as [h H]. exists (i, h). apply gruns_iff in H. split; [assumption|reflexivity]. Qed.

  Lemma hpc_all : forall k t, (k <= n)%nat -> length (sc t) = m -> (forall j, In j (sc t) -> (fst j < k)%nat) -> hpc k t = Z.of_nat m.
  Proof.
    intros k t Hk Hm Ha. pose proof (busy_count n m s sc Hv t) as E. rewrite Hm in E. rewrite E. unfold hpc.
    replace n with (k + (n - k))%nat by lia. rewrite sumf_split. rewrite (sumf_zero (fun i => b2z (trun sc (k + i) t))); [lia|].
    intros i _. destruct (trun sc (k + i) t) eqn:X; [|reflexivity]. apply trun_in in X. destruct X as [j [Hj Ej]]. specialize (Ha j Hj). lia.
  Qed.

  Lemma hpc_one : forall k t j, In j (sc t) -> (fst j < k)%nat -> 1 <= hpc k t.
  Proof.
    intros k t [i h] Hj Hk. cbn in Hk. pose proof (sumf_term_le (fun i => b2z (trun sc i t)) k i Hk
      ltac:(intros; pose proof (b2z_range (trun sc i0 t)); lia)) as X. cbn beta in X.
    assert (E : trun sc i t = true) by (apply trun_iff; exists h; apply gruns_iff; assumption). rewrite E in X. exact X.
  Qed.

  (** total work of the k most important tasks in a window *)
  Lemma hpc_work : forall k a L, sumf (fun d => hpc k (a + d)) L = sumf (fun i => tw sc a L i) k.
  Proof. intros. unfold hpc, tw. apply sumf_swap. Qed.

  (** J is ready in every slot of the window if its predecessors are complete *)
  Lemma window_ready : forall k q L d, (k < n)%nat -> (forall h, (h < q)%nat -> gcompleted s sc (k, h) (arr s k q)) ->
    gservice sc (k, q) (arr s k q + L) < Z.of_nat (cst s k q) -> (d <= L)%nat -> gready s sc (k, q) (arr s k q + d).
  Proof.
    intros k q L d Hk Hp Hi Hd. split; [|split]; cbn [fst snd].
    - rewrite (arr_rel ts s Hwf Hl) by assumption. lia.
    - pose proof (gservice_mono sc (k, q) (arr s k q + d) (arr s k q + L) ltac:(lia)). lia.
    - intros h Hh. eapply gcompleted_mono; [|apply (Hp h Hh)]. lia.
  Qed.

  (** induction over the jobs of one task *)
  Lemma resp_by_jobs : forall k R, (k < n)%nat -> 0 <= R -> R <= T k ->
    (forall q, (forall h, (h < q)%nat -> gcompleted s sc (k, h) (arr s k q)) ->
      gcompleted s sc (k, q) (arr s k q + Z.to_nat R)) -> resp s sc k R.
  Proof.
    intros k R Hk H0 HT H. assert (G : forall q, gcompleted s sc (k, q) (arr s k q + Z.to_nat R)).
    { induction q as [q IH] using (well_founded_induction lt_wf). apply H. intros h Hh.
      pose proof (sep_lt ts s Hwf Hl k h q Hk Hh) as Sp. fold (T k) in Sp. eapply gcompleted_mono; [|apply (IH h Hh)]. lia. }
    intros h e He. eapply gcompleted_mono; [|apply (G h)]. lia.
  Qed.

  (** ** Bertogna *)
  Section Bertogna.
    Variables (other direct : job -> nat -> bool) (b hd : nat -> Z).
    Hypothesis Hp : gfp_blocking n m s sc other direct.
    Hypothesis Hb : blocked_within n other direct b hd.
    Hypothesis Hm : (1 <= m)%nat.

    Lemma bert_sound : forall (R : nat -> Z) k, (k < n)%nat ->
      (forall i, (i < k)%nat -> resp s sc i (R i) /\ C i <= R i /\ C i <= T i) ->
      C k + b k <= R k -> R k <= T k -> 0 <= b k ->
      (k < m)%nat \/ Z.max (sumf (fun i => wl (C i) (T i) (R k + R i - C i)) k - hd k) 0 < Z.of_nat m * (R k - C k - b k + 1) ->
      resp s sc k (R k).
    Proof.
      intros R k Hk Hhp HR HT Hb0 Hfix. destruct (et_ok ts s Hwf Hl k Hk) as [K1 K2]. fold (C k) in K1. fold (T k) in K2.
      apply resp_by_jobs; [assumption|lia|assumption|]. intros q Hpred.
      set (r := arr s k q) in *. set (L := Z.to_nat (R k)). assert (EL : Z.of_nat L = R k) by (unfold L; lia).
      destruct (Z.le_gt_cases (Z.of_nat (cst s k q)) (gservice sc (k, q) (r + L))) as [Hc|Hc]; [exact Hc|exfalso].
      pose proof (cst_le ts s Hwf Hl k q Hk) as Cq. fold (C k) in Cq.
      set (busy d := hpc k (r + d) =? Z.of_nat m). set (dir d := direct (k, q) (r + d)%nat && (1 <=? hpc k (r + d)) && negb (busy d)).
      assert (Cnt : Z.of_nat L <= sumf (fun d => b2z (gruns sc (k, q) (r + d)) + b2z (other (k, q) (r + d)%nat) + b2z (dir d) + b2z (busy d)) L).
      { rewrite <- (Z.mul_1_l (Z.of_nat L)), <- sumf_const. apply sumf_le. intros d Hd.
        pose proof (b2z_range (gruns sc (k, q) (r + d))). pose proof (b2z_range (other (k, q) (r + d)%nat)). pose proof (b2z_range (dir d)). pose proof (b2z_range (busy d)).
        destruct (gruns sc (k, q) (r + d)) eqn:E; [cbn [b2z]; lia|].
        assert (Nr : ~ In (k, q) (sc (r + d)%nat)) by (rewrite <- gruns_iff; congruence).
        destruct (Hp (r + d)%nat (k, q) Hk (window_ready k q L d Hk Hpred Hc ltac:(lia)) Nr) as [O|[[O [j [J1 J2]]]|[O1 O2]]]; cbn [fst] in *.
        - rewrite O. cbn [b2z]. lia.
        - destruct (busy d) eqn:Bz; [cbn [b2z]; lia|].
          assert (G1 : (1 <=? hpc k (r + d)) = true) by (apply Z.leb_le; apply (hpc_one k (r + d) j); assumption).
          assert (Ed : dir d = true) by (unfold dir; rewrite O, G1, Bz; reflexivity). rewrite Ed. cbn [b2z]. lia.
        - assert (Ed : busy d = true) by (unfold busy; apply Z.eqb_eq; apply hpc_all; [lia|assumption|assumption]). rewrite Ed. cbn [b2z]. lia. }
      rewrite !sumf_add in Cnt.
      assert (S1 : sumf (fun d => b2z (gruns sc (k, q) (r + d))) L <= C k - 1).
      { pose proof (gservice_window sc (k, q) r L). pose proof (gservice_nonneg sc (k, q) r). lia. }
      destruct (Hb (k, q) (r + L)%nat Hk) as [B1 B2]. cbn [fst] in B1, B2.
      assert (Sub : forall p : nat -> bool, sumf (fun d => b2z (p (r + d)%nat)) L <= sumf (fun u => b2z (p u)) (r + L)).
      { intros p. rewrite sumf_split. assert (0 <= sumf (fun u => b2z (p u)) r); [|lia]. apply sumf_nonneg. intros u _. pose proof (b2z_range (p u)). lia. }
      pose proof (Sub (other (k, q))) as S2. pose proof (Sub (direct (k, q))) as S3.
      assert (S4 : sumf (fun d => b2z (dir d)) L <= sumf (fun d => b2z (direct (k, q) (r + d)%nat)) L).
      { apply sumf_le. intros d _. unfold dir. destruct (direct (k, q) (r + d)%nat); cbn [andb b2z]; [apply b2z_range|lia]. }
      assert (Wk : Z.of_nat m * sumf (fun d => b2z (busy d)) L + sumf (fun d => b2z (dir d)) L <= sumf (fun d => hpc k (r + d)) L).
      { rewrite <- sumf_mul, <- sumf_add. apply sumf_le. intros d _. pose proof (hpc_range k (r + d)). unfold dir.
        destruct (busy d) eqn:E; cbn [negb b2z]; rewrite ?andb_false_r, ?andb_true_r; cbn [b2z].
        - unfold busy in E. apply Z.eqb_eq in E. lia.
        - destruct (direct (k, q) (r + d)%nat); cbn [andb b2z]; [|lia]. destruct (Z.leb_spec 1 (hpc k (r + d))); cbn [b2z]; lia. }
      set (X := sumf (fun d => b2z (dir d)) L) in *. set (w := sumf (fun d => b2z (busy d)) L) in *.
      assert (X0 : 0 <= X) by (apply sumf_nonneg; intros d _; pose proof (b2z_range (dir d)); lia).
      destruct Hfix as [Hlt|Hfix].
      - assert (w = 0).
        { apply sumf_zero. intros d _. unfold busy. destruct (Z.eqb_spec (hpc k (r + d)) (Z.of_nat m)) as [E|E]; [|reflexivity].
          pose proof (hpc_range k (r + d)). lia. }
        lia.
      - rewrite hpc_work in Wk.
        assert (Wb : sumf (fun i => tw sc r L i) k <= sumf (fun i => wl (C i) (T i) (R k + R i - C i)) k).
        { apply sumf_le. intros i Hi. destruct (Hhp i Hi) as [P1 [P2 P3]]. rewrite <- EL.
          apply (tw_any ts m s sc Hwf Hl Hv r L i (R i)); [unfold n in *; lia|assumption|assumption|assumption]. }
        set (W := sumf (fun i => wl (C i) (T i) (R k + R i - C i)) k) in *.
        assert (G : R k - C k - b k + 1 <= w - (hd k - X)) by lia.
        assert (0 <= hd k - X) by lia. nia.
    Qed.
  End Bertogna.

  (** ** Guan *)
  Section Guan.
    Hypothesis Hp : gfp_strict n m s sc.
    Hypothesis Hm : (1 <= m)%nat.

    (** The interference bound, for a choice [car] of the tasks with carry-in. *)
    Definition guan_term (R : nat -> Z) (i : nat) (car : bool) (x : Z) : Z :=
      if car then Z.max (ci_bound (C i) (T i) (R i) x) 0 else wl (C i) (T i) x.

    Lemma guan_sound : forall (R : nat -> Z) k, (k < n)%nat ->
      (forall i, (i < k)%nat -> resp s sc i (R i) /\ C i <= R i /\ R i <= T i) ->
      C k <= R k -> R k <= T k ->
      (k < m)%nat \/ (forall car : nat -> bool, sumf (fun i => b2z (car i)) k <= Z.of_nat m - 1 ->
        sumf (fun i => Z.min (guan_term R i (car i) (R k)) (R k - C k + 1)) k < Z.of_nat m * (R k - C k + 1)) ->
      resp s sc k (R k).
    Proof.
      intros R k Hk Hhp HR HT Hfix. destruct (et_ok ts s Hwf Hl k Hk) as [K1 K2]. fold (C k) in K1. fold (T k) in K2.
      apply resp_by_jobs; [assumption|lia|assumption|]. intros q Hpred.
      set (r := arr s k q) in *. set (L := Z.to_nat (R k)). assert (EL : Z.of_nat L = R k) by (unfold L; lia).
      destruct (Z.le_gt_cases (Z.of_nat (cst s k q)) (gservice sc (k, q) (r + L))) as [Hc|Hc]; [exact Hc|exfalso].
      pose proof (cst_le ts s Hwf Hl k q Hk) as Cq. fold (C k) in Cq.
      (* start of the extended window *)
      destruct (least_nat (fun t => forallb (fun u => hpc k (t + u) =? Z.of_nat m) (seq 0 (r - t))) r) as [t0 [T1 [T2 T3]]].
      { rewrite Nat.sub_diag. reflexivity. }
      rewrite forallb_forall in T2.
      assert (Before : forall u, (t0 <= u < r)%nat -> hpc k u = Z.of_nat m).
      { intros u Hu. specialize (T2 (u - t0)%nat). rewrite in_seq in T2. specialize (T2 ltac:(lia)). apply Z.eqb_eq in T2.
        replace (t0 + (u - t0))%nat with u in T2 by lia. exact T2. }
      assert (Prev : t0 = 0%nat \/ hpc k (t0 - 1) <= Z.of_nat m - 1).
      { destruct t0 as [|t']; [left; reflexivity|right]. cbn [Nat.sub]. rewrite Nat.sub_0_r.
        pose proof (hpc_le k t' ltac:(lia)). destruct (Z.eq_dec (hpc k t') (Z.of_nat m)) as [E|E]; [exfalso|lia].
        specialize (T3 t' ltac:(lia)). apply not_true_iff_false in T3. apply T3. apply forallb_forall. intros u Hu. apply in_seq in Hu. apply Z.eqb_eq.
        destruct u as [|u]; [rewrite Nat.add_0_r; exact E|]. apply Before. lia. }
      (* slots of the window [t0, t0 + L) *)
      set (busy d := hpc k (t0 + d) =? Z.of_nat m).
      assert (Slot : forall d, (d < L)%nat -> gruns sc (k, q) (t0 + d) = true \/ busy d = true).
      { intros d Hd. destruct (Nat.lt_ge_cases (t0 + d) r) as [G|G].
        - right. unfold busy. apply Z.eqb_eq. apply Before. lia.
        - destruct (gruns sc (k, q) (t0 + d)) eqn:E; [left; reflexivity|right].
          assert (Nr : ~ In (k, q) (sc (t0 + d)%nat)) by (rewrite <- gruns_iff; congruence).
          pose proof (window_ready k q L (t0 + d - r) Hk Hpred Hc ltac:(lia)) as Rd. fold r in Rd. replace (r + (t0 + d - r))%nat with (t0 + d)%nat in Rd by lia.
          destruct (Hp (t0 + d)%nat (k, q) Hk Rd Nr) as [O1 O2]. unfold busy. apply Z.eqb_eq. apply hpc_all; [lia|assumption|assumption]. }
      assert (Cnt : R k - C k + 1 <= sumf (fun d => b2z (busy d)) L).
      { assert (Z.of_nat L <= sumf (fun d => b2z (gruns sc (k, q) (t0 + d)) + b2z (busy d)) L).
        { rewrite <- (Z.mul_1_l (Z.of_nat L)), <- sumf_const. apply sumf_le. intros d Hd.
          pose proof (b2z_range (gruns sc (k, q) (t0 + d))). pose proof (b2z_range (busy d)).
          destruct (Slot d Hd) as [E|E]; rewrite E; cbn [b2z]; lia. }
        rewrite sumf_add in H. pose proof (gservice_window sc (k, q) t0 L). pose proof (gservice_nonneg sc (k, q) t0).
        pose proof (gservice_mono sc (k, q) (t0 + L) (r + L) ltac:(lia)). lia. }
      set (x := R k - C k + 1) in *. assert (Hx : 0 <= x) by (unfold x; lia).
      set (sel d := busy d && (sumf (fun u => b2z (busy u)) d <? x)).
      assert (Hsel : sumf (fun d => b2z (sel d)) L = x) by (unfold sel; rewrite first_slots by assumption; lia).
      assert (E : Z.of_nat m * x <= sumf (fun i => Z.min (tw sc t0 L i) x) k).
      { rewrite <- Hsel at 1. rewrite <- sumf_mul.
        apply Z.le_trans with (sumf (fun d => sumf (fun i => b2z (sel d && trun sc i (t0 + d))) k) L).
        - apply sumf_le. intros d Hd. unfold sel. destruct (busy d) eqn:Eb; cbn [andb].
          + destruct (sumf (fun u => b2z (busy u)) d <? x); cbn [andb b2z].
            * unfold busy in Eb. apply Z.eqb_eq in Eb. unfold hpc in Eb. lia.
            * rewrite sumf_zero by reflexivity. lia.
          + cbn [b2z]. rewrite sumf_zero by reflexivity. lia.
        - rewrite sumf_swap. apply sumf_le. intros i Hi. apply Z.min_glb.
          + unfold tw. apply sumf_le. intros d _. destruct (sel d); cbn [andb b2z]; [lia|]. pose proof (b2z_range (trun sc i (t0 + d))). lia.
          + rewrite <- Hsel. apply sumf_le. intros d _. destruct (sel d); cbn [andb b2z]; [|lia]. pose proof (b2z_range (trun sc i (t0 + d))). lia. }
      assert (Hlast : forall i h, (i < k)%nat -> (arr s i h < t0)%nat -> gservice sc (i, h) t0 < Z.of_nat (cst s i h) -> gruns sc (i, h) (t0 - 1) = true).
      { intros i h Hi Ha Hinc. assert (Hin : (i < n)%nat) by lia. destruct (Hhp i Hi) as [P1 [P2 P3]]. destruct (et_ok ts s Hwf Hl i Hin) as [Q1 Q2].
        fold (C i) in Q1. fold (T i) in Q2.
        destruct (gruns sc (i, h) (t0 - 1)) eqn:Er; [reflexivity|exfalso].
        assert (Nr : ~ In (i, h) (sc (t0 - 1)%nat)) by (rewrite <- gruns_iff; congruence).
        assert (Rd : gready s sc (i, h) (t0 - 1)).
        { split; [|split]; cbn [fst snd].
          - rewrite (arr_rel ts s Hwf Hl) by assumption. lia.
          - pose proof (gservice_mono sc (i, h) (t0 - 1) t0 ltac:(lia)). lia.
          - intros h' Hh'. pose proof (sep_lt ts s Hwf Hl i h' h Hin Hh') as Sp. fold (T i) in Sp.
            apply gcompleted_mono with (a := (arr s i h' + Z.to_nat (R i))%nat); [lia|]. apply P1. lia. }
        destruct (Hp (t0 - 1)%nat (i, h) Hin Rd Nr) as [O1 O2]. cbn [fst] in O2.
        assert (hpc k (t0 - 1) = Z.of_nat m) by (apply hpc_all; [lia|assumption|intros j Hj; specialize (O2 j Hj); lia]).
        destruct Prev as [P|P]; lia. }
      destruct Hfix as [Hlt|Hfix].
      - (* fewer than m more important tasks *)
        assert (sumf (fun d => b2z (busy d)) L = 0).
        { apply sumf_zero. intros d _. unfold busy. destruct (Z.eqb_spec (hpc k (t0 + d)) (Z.of_nat m)) as [Eq|Ne]; [|reflexivity].
          pose proof (hpc_range k (t0 + d)). lia. }
        unfold x in *. lia.
      - set (car i := if (t0 =? 0)%nat then false else trun sc i (t0 - 1)).
        assert (Hcar : sumf (fun i => b2z (car i)) k <= Z.of_nat m - 1).
        { unfold car. destruct (Nat.eqb_spec t0 0) as [Z0|Z0]; [rewrite sumf_zero by reflexivity; lia|].
          destruct Prev as [P|P]; [lia|exact P]. }
        specialize (Hfix car Hcar). apply (Z.lt_irrefl (Z.of_nat m * x)). eapply Z.le_lt_trans; [exact E|].
        eapply Z.le_lt_trans; [|exact Hfix]. apply sumf_le. intros i Hi. apply Z.min_le_compat_r.
        assert (Hin : (i < n)%nat) by lia. destruct (Hhp i Hi) as [P1 [P2 P3]]. destruct (et_ok ts s Hwf Hl i Hin) as [Q1 Q2].
        fold (C i) in Q1. fold (T i) in Q2. unfold guan_term. rewrite <- EL. destruct (car i) eqn:Ec.
        + destruct (Z.eq_dec (C i) 0) as [C0|C0].
          * eapply Z.le_trans; [|apply Z.le_max_r].
            eapply Z.le_trans; [apply (tw_any ts m s sc Hwf Hl Hv t0 L i (R i)); fold (C i) (T i); try assumption; lia|].
            fold (C i) (T i). rewrite C0. unfold wl. destruct (Z.of_nat L + R i - 0 <? 0); [lia|].
            pose proof (Z.mod_pos_bound (Z.of_nat L + R i - 0) (T i) ltac:(lia)). lia.
          * eapply Z.le_trans; [|apply Z.le_max_l].
            apply (tw_carry ts m s sc Hwf Hl Hv t0 L i (R i)); fold (C i) (T i); try assumption; try lia.
            intros h Ha Hinc. pose proof (Hlast i h Hi Ha Hinc) as Lr. pose proof (gservice_step sc (i, h) (t0 - 1)) as St.
            replace (S (t0 - 1)) with t0 in St by lia. rewrite Lr in St. cbn [b2z] in St. pose proof (gservice_nonneg sc (i, h) (t0 - 1)). lia.
        + apply (tw_nocarry ts m s sc Hwf Hl Hv t0 L i); fold (C i) (T i); try assumption; try lia.
          intros h Ha. destruct (Z.le_gt_cases (Z.of_nat (cst s i h)) (gservice sc (i, h) t0)) as [G|G]; [exact G|exfalso].
          pose proof (Hlast i h Hi Ha G) as Lr. unfold car in Ec. destruct (Nat.eqb_spec t0 0) as [Z0|Z0]; [lia|].
          assert (trun sc i (t0 - 1) = true) by (apply trun_iff; exists h; exact Lr). congruence.
    Qed.
  End Guan.
End Sound.
