(** Soundness of the BAR test: the interference on the first job that misses its
    deadline, with at most m-1 carry-in tasks. *)
From Coq Require Import ZArith QArith Qround List Bool Lia Lqa Wf_nat.
From Verif Require Import Base ModelTasks SpecUni SpecQPA SpecGlobal ProofUni ProofEDF ProofGlobal ProofGFB ModelGEDF ProofGEDF ProofBusy.
Import ListNotations.
Open Scope Z_scope.

Section Carry.
  Variables (ts : list etask) (m : nat) (s : jobseq) (sc : gschedule).
  Let n := length ts.
  Hypothesis Hwf : Forall wf_etask ts.
  Hypothesis Hl : legal_edf ts s.
  Hypothesis Hv : gvalid n m s sc.
  Hypothesis Hp : gedf ts m s sc.
  Hypothesis Hm : (1 <= m)%nat.
  Let C i := e_cost (et ts i).
  Let D i := e_deadline (et ts i).
  Let T i := e_period (et ts i).
  Hypothesis HD : forall i, (i < n)%nat -> 1 <= D i <= T i.
  Hypothesis HC : forall i, (i < n)%nat -> 0 <= C i <= D i.
  Variable d : nat.
  Hypothesis IHd : forall i h d', (i < n)%nat -> (d' < d)%nat -> Z.of_nat d' = due ts s (i, h) -> gcompleted s sc (i, h) d'.
  Variables (k q : nat).
  Hypothesis Hk : (k < n)%nat.
  Hypothesis Hdue : due ts s (k, q) = Z.of_nat d.
  Hypothesis Hmiss : gservice sc (k, q) d < Z.of_nat (cst s k q).

  Let r := arr s k q.
  Let Ed : Z.of_nat d = Z.of_nat r + D k := miss_arr ts s d k q Hdue.

  (** slot u is full of jobs due at d or before *)
  Definition full (u : nat) : bool := Nat.eqb (length (sc u)) m && forallb (fun j => due ts s j <=? Z.of_nat d) (sc u).

  Lemma full_iff : forall u, full u = true <-> length (sc u) = m /\ forall j, In j (sc u) -> due ts s j <= Z.of_nat d.
  Proof.
    intros u. unfold full. rewrite andb_true_iff, Nat.eqb_eq, forallb_forall. split; intros [H1 H2]; split; try assumption; intros j Hj.
    - apply Z.leb_le. apply H2. assumption.
    - apply Z.leb_le. apply H2. assumption.
  Qed.

  Definition starts (t : nat) : bool := match t with O => true | S u => negb (full u) end.

  (** a job of task i released before t is incomplete at t *)
  Definition carry (t i : nat) : bool :=
    existsb (fun h => inI ts s d i h && Nat.ltb (arr s i h) t && (gservice sc (i, h) t <? Z.of_nat (cst s i h))) (seq 0 (S d)).

  Lemma carry_false : forall t i h, (i < n)%nat -> carry t i = false -> inI ts s d i h = true -> (arr s i h < t)%nat -> gcompleted s sc (i, h) t.
  Proof.
    intros t i h Hi Hc Hin Ha. unfold gcompleted. cbn [fst snd].
    destruct (Z.le_gt_cases (Z.of_nat (cst s i h)) (gservice sc (i, h) t)) as [G|G]; [assumption|exfalso].
    assert (X : carry t i = true); [|congruence]. unfold carry. apply existsb_exists. exists h. split.
    - apply in_seq. pose proof (inI_idx ts m s Hwf Hl Hm HD d i h Hi Hin). lia.
    - rewrite Hin. cbn [andb]. apply andb_true_iff. split; [apply Nat.ltb_lt; assumption|apply Z.ltb_lt; lia].
  Qed.

  Lemma carry_few : forall t, starts t = true -> sumf (fun i => b2z (carry t i)) n <= Z.of_nat m - 1.
  Proof.
    intros [|u] Hs.
    - rewrite sumf_zero; [lia|]. intros i _. unfold carry.
      destruct (existsb _ (seq 0 (S d))) eqn:E; [|reflexivity]. apply existsb_exists in E. destruct E as [h [_ E]].
      apply andb_true_iff in E. destruct E as [E _]. apply andb_true_iff in E. destruct E as [_ E]. apply Nat.ltb_lt in E. lia.
    - cbn [starts] in Hs. apply negb_true_iff in Hs. set (P := fun j => due ts s j <=? Z.of_nat d).
      set (l := filter P (sc u)).
      assert (Hlen : Z.of_nat (length l) <= Z.of_nat m - 1).
      { destruct (Hv u) as [V1 _].
        assert (G : (length l <= length (sc u))%nat /\ (length l = length (sc u) -> forallb P (sc u) = true)).
        { unfold l. clear. induction (sc u) as [|x xs [I1 I2]]; cbn; [split; [lia|reflexivity]|]. destruct (P x); cbn; split; intros; try lia; apply I2; lia. }
        destruct G as [G1 G2]. destruct (Nat.eq_dec (length l) m) as [E|E]; [|lia]. exfalso.
        assert (E' : length (sc u) = m) by lia. specialize (G2 ltac:(lia)). unfold full in Hs. fold P in Hs. rewrite E', Nat.eqb_refl, G2 in Hs. discriminate. }
      eapply Z.le_trans; [|exact Hlen].
      rewrite (count_tasks n l).
      + apply sumf_le. intros i Hi. destruct (carry (S u) i) eqn:Ec; [|apply b2z_range].
        apply existsb_exists in Ec. destruct Ec as [h [_ Ec]]. apply andb_true_iff in Ec. destruct Ec as [Ec E3]. apply andb_true_iff in Ec. destruct Ec as [E1 E2].
        apply Nat.ltb_lt in E2. apply Z.ltb_lt in E3.
        assert (Hru : gready s sc (i, h) u).
        { apply (runs_ready_I ts m s sc Hwf Hl Hm HD d IHd i h u Hi E1); [lia|]. pose proof (gservice_mono sc (i, h) u (S u) ltac:(lia)). lia. }
        assert (Hr : In (i, h) (sc u)).
        { destruct (gruns sc (i, h) u) eqn:G; [apply gruns_iff; assumption|exfalso].
          destruct (Hp u (i, h) Hi Hru) as [B1 B2]; [rewrite <- gruns_iff; congruence|].
          assert (F : full u = true); [|congruence]. apply full_iff. split; [assumption|]. intros j Hj. specialize (B2 j Hj).
          unfold inI in E1. apply Z.leb_le in E1. lia. }
        replace (existsb (fun j => Nat.eqb (fst j) i) l) with true; [lia|]. symmetry. apply existsb_exists. exists (i, h).
        split; [|apply Nat.eqb_refl]. apply filter_In. split; [assumption|]. exact E1.
      + assert (N : NoDup (map fst (sc u))) by (apply (nodup_tasks n m s sc Hv)). unfold l. clear - N.
        induction (sc u) as [|x xs IH]; cbn; [constructor|]. cbn in N. inversion N as [|? ? N1 N2]. subst.
        destruct (P x); [|apply IH; assumption]. cbn. constructor; [|apply IH; assumption].
        intros X. apply N1. apply in_map_iff in X. destruct X as [y [E Hy]]. apply filter_In in Hy. apply in_map_iff. exists y. tauto.
      + intros j Hj. apply filter_In in Hj. apply (proj2 (proj2 (Hv u))). apply Hj.
  Qed.

  (** ** The slots in which others interfere *)
  Section Window.
    Variable A : nat.
    Hypothesis HA : (A <= r)%nat.
    Hypothesis Hfull : forall u, (r - A <= u < r)%nat -> full u = true.
    Let t' := (r - A)%nat.
    Let X0 := D k - C k + 1.
    Let L := Z.to_nat (D k).

    Let Hpred : forall h, (h < q)%nat -> gcompleted s sc (k, h) r.
    Proof. intros h Hh. apply (pred_done ts m s sc Hwf Hl Hm HD d IHd k q h Hk (miss_in ts s d k q Hdue) Hh). Qed.

    Let EL : (r + L)%nat = d.
    Proof. pose proof (HD k Hk). unfold L. lia. Qed.

    Let Hinc : gservice sc (k, q) (r + L) < Z.of_nat (cst s k q).
    Proof. rewrite EL. exact Hmiss. Qed.

    Let int (x : nat) : bool := inter s sc k q x.

    Definition selx (x : nat) : bool :=
      if (x <? A)%nat then true else inter s sc k q (x - A) && (sumf (fun u => b2z (inter s sc k q u)) (x - A) <? (D k - C k + 1)).

    Lemma sel_count : sumf (fun x => b2z (selx x)) (A + L) = Z.of_nat A + X0.
    Proof.
      rewrite sumf_split. rewrite (sumf_ext _ (fun _ => 1) A).
      - rewrite sumf_const. rewrite (sumf_ext _ (fun x => b2z (int x && (sumf (fun u => b2z (int u)) x <? X0))) L).
        + rewrite first_slots by (unfold X0; pose proof (HC k Hk); lia).
          assert (E : X0 <= sumf (fun u => b2z (int u)) L); [|lia].
          unfold int. rewrite (inter_count ts m s sc Hwf Hl Hv k q L Hk). fold r. rewrite EL.
          pose proof (cst_le ts s Hwf Hl k q Hk) as Hc. fold (C k) in Hc. pose proof (HD k Hk). unfold X0, L. lia.
        + intros x _. unfold selx. destruct (Nat.ltb_spec (A + x) A); [lia|]. replace (A + x - A)%nat with x by lia. reflexivity.
      - intros x Hx. unfold selx. destruct (Nat.ltb_spec x A); [reflexivity|lia].
    Qed.

    Lemma sel_slot : forall x, (x < A + L)%nat -> selx x = true -> full (t' + x) = true /\ ((A <= x)%nat -> trun sc k (t' + x) = false).
    Proof.
      intros x Hx Hs. unfold selx in Hs. destruct (Nat.ltb_spec x A) as [G|G].
      - split; [apply Hfull; unfold t'; lia|lia].
      - apply andb_true_iff in Hs. destruct Hs as [Hs _].
        destruct (inter_slot ts m s sc Hwf Hl Hv Hp k q L Hk Hpred Hinc (x - A) ltac:(lia) Hs) as [I1 [I2 I3]]. fold r in I1, I2, I3.
        replace (r + (x - A))%nat with (t' + x)%nat in * by (unfold t'; lia). split; [|intros _; assumption].
        apply full_iff. split; [assumption|]. intros j Hj. rewrite <- Hdue. apply I2. assumption.
    Qed.

    Definition contrib (i : nat) : Z := sumf (fun x => b2z (selx x && trun sc i (r - A + x))) (A + Z.to_nat (D k)).

    Lemma contrib_total : Z.of_nat m * (Z.of_nat A + X0) = sumf contrib n.
    Proof.
      rewrite <- sel_count, <- sumf_mul. unfold contrib. rewrite sumf_swap. apply sumf_ext. intros x Hx.
      destruct (selx x) eqn:E; cbn [andb b2z].
      - fold t'. rewrite <- (busy_count n m s sc Hv). destruct (sel_slot x Hx E) as [F _]. apply full_iff in F. destruct F as [-> _]. lia.
      - rewrite sumf_zero; [lia|reflexivity].
    Qed.

    Lemma contrib_cap : forall i, contrib i <= Z.of_nat A + X0.
    Proof.
      intros i. rewrite <- sel_count. apply sumf_le. intros x _. destruct (selx x); cbn [andb]; [apply b2z_range|cbn; lia].
    Qed.

    Lemma contrib_cap_k : contrib k <= Z.of_nat A.
    Proof.
      unfold contrib. fold L. rewrite sumf_split. rewrite (sumf_zero _ L).
      - rewrite Z.add_0_r.
        eapply Z.le_trans; [apply sumf_le with (g := fun _ => 1)|rewrite sumf_const; lia]. intros. apply b2z_range.
      - intros x Hx. destruct (selx (A + x)) eqn:E; [|reflexivity].
        destruct (sel_slot (A + x) ltac:(lia) E) as [_ F]. cbn [andb]. fold t'. rewrite F by lia. reflexivity.
    Qed.

    Lemma task_step : forall i u, Stask ts s sc d i (S u) =
      Stask ts s sc d i u + sumf (fun h => if inI ts s d i h then b2z (gruns sc (i, h) u) else 0) (S d).
    Proof.
      intros i u. unfold Stask. rewrite <- sumf_add. apply sumf_ext. intros h _. rewrite gservice_step. destruct (inI ts s d i h); lia.
    Qed.

    Lemma slot_task : forall i u, (i < n)%nat -> full u = true -> trun sc i u = true ->
      1 <= sumf (fun h => if inI ts s d i h then b2z (gruns sc (i, h) u) else 0) (S d).
    Proof.
      intros i u Hi F E. apply trun_iff in E. destruct E as [h E]. apply full_iff in F. destruct F as [_ F].
      pose proof E as E'. apply gruns_iff in E'. specialize (F _ E').
      assert (Hin : inI ts s d i h = true) by (unfold inI; apply Z.leb_le; assumption).
      pose proof (inI_idx ts m s Hwf Hl Hm HD d i h Hi Hin) as Hh.
      pose proof (sumf_term_le (fun h => if inI ts s d i h then b2z (gruns sc (i, h) u) else 0) (S d) h Hh) as X.
      cbn beta in X. rewrite Hin, E in X. apply X. intros x _. pose proof (b2z_range (gruns sc (i, x) u)). destruct (inI ts s d i x); lia.
    Qed.

    Lemma contrib_upto : forall i y, (i < n)%nat -> (y <= A + L)%nat ->
      sumf (fun x => b2z (selx x && trun sc i (t' + x))) y <= Stask ts s sc d i (t' + y) - Stask ts s sc d i t'.
    Proof.
      intros i y Hi. induction y; intros Hy; [rewrite Nat.add_0_r; cbn; lia|]. specialize (IHy ltac:(lia)). cbn [sumf].
      rewrite Nat.add_succ_r, task_step.
      assert (0 <= sumf (fun h => if inI ts s d i h then b2z (gruns sc (i, h) (t' + y)) else 0) (S d)).
      { apply sumf_nonneg. intros x _. pose proof (b2z_range (gruns sc (i, x) (t' + y))). destruct (inI ts s d i x); lia. }
      destruct (selx y) eqn:E; cbn [andb]; [|cbn [b2z]; lia].
      destruct (trun sc i (t' + y)) eqn:Et; [|cbn [b2z]; lia]. destruct (sel_slot y ltac:(lia) E) as [F _].
      pose proof (slot_task i (t' + y) Hi F Et). cbn [b2z]. lia.
    Qed.

    Lemma contrib_work : forall i, (i < n)%nat -> contrib i <= sumf (fun h => jwork ts s sc d t' i h) (S d).
    Proof.
      intros i Hi. rewrite <- Stask_jwork. unfold contrib. fold L t'. pose proof (contrib_upto i (A + L) Hi ltac:(lia)) as G.
      replace (t' + (A + L))%nat with d in G by (unfold t'; lia). exact G.
    Qed.

    (** the task that misses: only its earlier jobs interfere *)
    Lemma contrib_work_k : contrib k <= sumf (fun h => jwork ts s sc d t' k h) q.
    Proof.
      assert (E : contrib k = sumf (fun x => b2z (selx x && trun sc k (t' + x))) A).
      { unfold contrib. fold L t'. rewrite sumf_split, (sumf_zero _ L); [lia|]. intros x Hx.
        destruct (selx (A + x)) eqn:E; [|reflexivity]. destruct (sel_slot (A + x) ltac:(lia) E) as [_ F]. cbn [andb]. rewrite F by lia. reflexivity. }
      rewrite E. eapply Z.le_trans; [apply (contrib_upto k A Hk ltac:(lia))|]. replace (t' + A)%nat with r by (unfold t'; lia).
      pose proof (inI_idx ts m s Hwf Hl Hm HD d k q Hk (miss_in ts s d k q Hdue)) as Hq.
      assert (G : Stask ts s sc d k r - Stask ts s sc d k t' = sumf (fun h => if inI ts s d k h then gservice sc (k, h) r - gservice sc (k, h) t' else 0) (S d)).
      { unfold Stask. replace (sumf (fun h => if inI ts s d k h then gservice sc (k, h) r - gservice sc (k, h) t' else 0) (S d)) with
          (sumf (fun h => (if inI ts s d k h then gservice sc (k, h) r else 0) + (-1) * (if inI ts s d k h then gservice sc (k, h) t' else 0)) (S d)).
        - rewrite sumf_add, sumf_mul. ring.
        - apply sumf_ext. intros h _. destruct (inI ts s d k h); ring. }
      rewrite G. replace (S d) with (q + (S d - q))%nat by lia. rewrite sumf_split, (sumf_zero _ (S d - q)).
      - rewrite Z.add_0_r. apply sumf_le. intros h Hh. unfold jwork. destruct (inI ts s d k h); [|lia].
        pose proof (gservice_mono sc (k, h) r d ltac:(lia)). lia.
      - intros x Hx. destruct (inI ts s d k (q + x)); [|reflexivity].
        assert (Hr : (r <= arr s k (q + x))%nat).
        { destruct x; [rewrite Nat.add_0_r; unfold r; lia|]. pose proof (sep_lt ts s Hwf Hl k q (q + S x) Hk ltac:(lia)) as Sp. fold (T k) in Sp.
          pose proof (HD k Hk). fold r in Sp. lia. }
        rewrite !(gservice_before_release n m s sc Hv (k, (q + x)%nat)); [ring| |]; cbn [fst snd]; rewrite (arr_rel ts s Hwf Hl) by assumption; unfold t' in *; lia.
    Qed.

    (** work after t' ends by the deadline *)
    Lemma jwork_due : forall i h, (i < n)%nat -> jwork ts s sc d t' i h <= Z.max 0 (Z.of_nat (arr s i h) + D i - Z.of_nat t').
    Proof.
      intros i h Hi. unfold jwork. destruct (inI ts s d i h) eqn:Hin; [|lia].
      pose proof (HD i Hi) as Hd. pose proof (HD k Hk) as Hdk. pose proof Hin as Hin'. apply (inI_iff ts s d i h) in Hin'. fold (D i) in Hin'.
      set (e := (arr s i h + Z.to_nat (D i))%nat). assert (Ee : Z.of_nat e = Z.of_nat (arr s i h) + D i) by (unfold e; lia).
      assert (Htd : (t' < d)%nat) by (unfold t'; lia).
      assert (G : gservice sc (i, h) d = gservice sc (i, h) e).
      { destruct (Nat.eq_dec e d) as [->|Ne]; [reflexivity|]. apply (gservice_frozen n m s sc Hv); [lia|].
        apply (done_by_due ts m s sc Hm HD d IHd i h e Hi Hin); [lia|cbv beta; fold (D i); lia]. }
      rewrite G. destruct (Nat.le_gt_cases e t') as [Le|Le].
      - pose proof (gservice_mono sc (i, h) e t' Le). lia.
      - replace e with (t' + (e - t'))%nat at 1 by lia. rewrite gservice_window.
        assert (sumf (fun u => b2z (gruns sc (i, h) (t' + u))) (e - t') <= Z.of_nat (e - t')).
        { eapply Z.le_trans; [apply sumf_le with (g := fun _ => 1)|rewrite sumf_const; lia]. intros. apply b2z_range. }
        lia.
    Qed.

    Lemma carry_bound : forall i, (i < n)%nat -> i <> k -> contrib i <= wl (C i) (T i) (Z.of_nat A + D k).
    Proof.
      intros i Hi _. eapply Z.le_trans; [apply contrib_work; assumption|]. pose proof (HD i Hi). pose proof (HC i Hi). pose proof (HD k Hk).
      apply (workload_due (C i) (T i) (D i) (Z.of_nat t') (fun h => jwork ts s sc d t' i h) (fun h => Z.of_nat (arr s i h))).
      - lia.
      - lia.
      - intros h. apply (sep ts s Hwf Hl i h Hi).
      - intros h. apply (jwork_range ts m s sc Hwf Hl Hv Hm d t' i h); [unfold t'; lia|assumption].
      - intros h. apply jwork_due. assumption.
      - intros h _. unfold jwork. destruct (inI ts s d i h) eqn:Hin; [right|left; reflexivity].
        apply (inI_iff ts s d i h) in Hin. fold (D i) in Hin. unfold t'. lia.
    Qed.

    Lemma carry_bound_k : contrib k <= wl (C k) (T k) (Z.of_nat A + D k) - C k.
    Proof.
      pose proof (HD k Hk) as Hd. pose proof (HC k Hk) as Hc.
      assert (G : contrib k <= wl (C k) (T k) (Z.of_nat A + D k - T k)).
      { eapply Z.le_trans; [apply contrib_work_k|].
        apply (workload_due (C k) (T k) (D k) (Z.of_nat t') (fun h => jwork ts s sc d t' k h) (fun h => Z.of_nat (arr s k h))).
        - lia.
        - lia.
        - intros h. apply (sep ts s Hwf Hl k h Hk).
        - intros h. apply (jwork_range ts m s sc Hwf Hl Hv Hm d t' k h); [unfold t'; lia|assumption].
        - intros h. apply jwork_due. assumption.
        - intros h Hh. right. pose proof (sep_lt ts s Hwf Hl k h q Hk Hh) as Sp. fold (T k) in Sp. fold r in Sp. unfold t'. lia. }
      destruct (Z.le_gt_cases (T k) (Z.of_nat A + D k)) as [Le|Le].
      - rewrite wl_step by lia. lia.
      - rewrite wl_small by lia. unfold wl in G at 1. destruct (Z.ltb_spec (Z.of_nat A + D k - T k) 0); [|lia]. lia.
    Qed.

    (** without carry-in at an earlier time tO *)
    Lemma no_carry_bound : forall tO i, (i < n)%nat -> (tO <= t')%nat -> carry tO i = false ->
      exists N, 0 <= N /\ (N = 0 \/ (N - 1) * T i + D i <= Z.of_nat d - Z.of_nat tO) /\ contrib i <= (if Nat.eqb i k then N * C i - C i else N * C i) /\
        (i = k -> 1 <= N).
    Proof.
      intros tO i Hi HtO Hc. pose proof (HD i Hi) as Hd. pose proof (HC i Hi) as HCi. pose proof (HD k Hk) as Hdk.
      set (a := fun h => jwork ts s sc d t' i h).
      assert (Ha : forall h, 0 <= a h <= C i) by (intros; apply (jwork_range ts m s sc Hwf Hl Hv Hm d t' i h); [unfold t'; lia|assumption]).
      assert (Hrel : forall h, a h <> 0 -> inI ts s d i h = true /\ (tO <= arr s i h)%nat).
      { intros h Nz. unfold a, jwork in Nz. destruct (inI ts s d i h) eqn:Hin; [|congruence]. split; [reflexivity|].
        destruct (Nat.le_gt_cases tO (arr s i h)) as [Le|Le]; [assumption|exfalso]. apply Nz.
        pose proof (carry_false tO i h Hi Hc Hin Le) as G.
        rewrite (gservice_frozen n m s sc Hv (i, h) tO d), (gservice_frozen n m s sc Hv (i, h) tO t') by (assumption || unfold t'; lia). ring. }
      assert (SepX : forall h x, Z.of_nat (arr s i h) + Z.of_nat x * T i <= Z.of_nat (arr s i (h + x))).
      { intros h. induction x; [rewrite Nat.add_0_r; lia|]. rewrite Nat.add_succ_r. pose proof (sep ts s Hwf Hl i (h + x) Hi) as Sx. fold (T i) in Sx. lia. }
      destruct (Nat.eqb_spec i k) as [E|E].
      - pose proof contrib_work_k as CW. rewrite <- E in CW. fold a in CW. 
        destruct (existsb (fun h => negb (a h =? 0)) (seq 0 q)) eqn:Ex.
        + apply existsb_exists in Ex. destruct Ex as [hx [Hx Px]]. apply in_seq in Hx.
          destruct (least_nat (fun h => negb (a h =? 0)) hx Px) as [h0 [L0 [P0 M0]]]. apply negb_true_iff, Z.eqb_neq in P0.
          destruct (Hrel h0 P0) as [In0 R0].
          exists (Z.of_nat (q - h0) + 1). split; [lia|]. split; [|split; [|lia]].
          * right. specialize (SepX h0 (q - h0)%nat). replace (h0 + (q - h0))%nat with q in SepX by lia.
            assert (Er : Z.of_nat (arr s i q) = Z.of_nat r) by (rewrite E; reflexivity). rewrite Er in SepX.
            replace (Z.of_nat (q - h0) + 1 - 1) with (Z.of_nat (q - h0)) by ring. rewrite Ed. rewrite <- E. lia.
          * eapply Z.le_trans; [exact CW|]. pose proof (range_sum a (C i) h0 (q - 1) q ltac:(lia) ltac:(lia) Ha) as RS.
            eapply Z.le_trans; [apply RS|].
            -- intros h Hh Nz. split; [|lia]. destruct (Nat.le_gt_cases h0 h); [assumption|]. specialize (M0 h ltac:(lia)). apply negb_false_iff, Z.eqb_eq in M0. contradiction.
            -- specialize (Ha h0). replace (Z.of_nat (q - 1 - h0)) with (Z.of_nat (q - h0) - 1) by lia. lia.
        + exists 1. split; [lia|]. split; [right; rewrite Ed, <- E; unfold t' in HtO; lia|]. split; [|lia].
          eapply Z.le_trans; [exact CW|]. rewrite (sumf_zero a); [lia|]. intros h Hh. destruct (Z.eq_dec (a h) 0) as [e|e]; [assumption|exfalso].
          assert (X : existsb (fun h => negb (a h =? 0)) (seq 0 q) = true); [|congruence].
          apply existsb_exists. exists h. split; [apply in_seq; lia|]. apply negb_true_iff, Z.eqb_neq. assumption.
      - pose proof (contrib_work i Hi) as CW. fold a in CW.
        destruct (existsb (fun h => negb (a h =? 0)) (seq 0 (S d))) eqn:Ex.
        + apply existsb_exists in Ex. destruct Ex as [hx [Hx Px]]. apply in_seq in Hx.
          destruct (least_nat (fun h => negb (a h =? 0)) hx Px) as [h0 [L0 [P0 M0]]].
          destruct (last_nat (fun h => negb (a h =? 0)) d hx ltac:(lia) Px) as [h1 [L1 [P1 M1]]].
          assert (L01 : (h0 <= h1)%nat) by (destruct (Nat.le_gt_cases h0 h1); [assumption|specialize (M0 h1 ltac:(lia)); congruence]).
          apply negb_true_iff, Z.eqb_neq in P0. apply negb_true_iff, Z.eqb_neq in P1.
          destruct (Hrel h0 P0) as [In0 R0]. destruct (Hrel h1 P1) as [In1 R1].
          exists (Z.of_nat (h1 - h0) + 1). split; [lia|]. split; [|split; [|lia]].
          * right. apply (inI_iff ts s d i h1) in In1. fold (D i) in In1. specialize (SepX h0 (h1 - h0)%nat). replace (h0 + (h1 - h0))%nat with h1 in SepX by lia. lia.
          * eapply Z.le_trans; [exact CW|]. pose proof (range_sum a (C i) h0 h1 (S d) L01 ltac:(lia) Ha) as RS.
            eapply Z.le_trans; [apply RS|].
            -- intros h Hh Nz. split.
               ++ destruct (Nat.le_gt_cases h0 h); [assumption|]. specialize (M0 h ltac:(lia)). apply negb_false_iff, Z.eqb_eq in M0. contradiction.
               ++ destruct (Nat.le_gt_cases h h1); [assumption|]. specialize (M1 h ltac:(lia)). apply negb_false_iff, Z.eqb_eq in M1. contradiction.
            -- specialize (Ha h0). lia.
        + exists 0. split; [lia|]. split; [left; reflexivity|]. split; [|lia].
          eapply Z.le_trans; [exact CW|]. rewrite (sumf_zero a); [lia|]. intros h Hh. destruct (Z.eq_dec (a h) 0) as [e|e]; [assumption|exfalso].
          assert (X : existsb (fun h => negb (a h =? 0)) (seq 0 (S d)) = true); [|congruence].
          apply existsb_exists. exists h. split; [apply in_seq; lia|]. apply negb_true_iff, Z.eqb_neq. assumption.
    Qed.
  End Window.

  (** a + D k is the end of a demand interval of some task *)
  Definition dpoint (a : Z) : Prop := 0 <= a /\ exists i j, (i < n)%nat /\ 0 <= j /\ a + D k = D i + j * T i.

  (** The condition violated by the miss, at a point where the demand changes. *)
  Lemma carry_core : exists (A : Z) (car : nat -> bool) (w : nat -> Z), dpoint A /\
    sumf (fun i => b2z (car i)) n <= Z.of_nat m - 1 /\
    Z.of_nat m * (A + D k - C k + 1) <= sumf w n /\
    forall i, (i < n)%nat ->
      (if Nat.eqb i k then w i <= A else w i <= A + D k - C k + 1) /\
      (car i = true -> w i <= wl (C i) (T i) (A + D k) - (if Nat.eqb i k then C k else 0)) /\
      (car i = false -> exists N, 0 <= N /\ (N = 0 \/ (N - 1) * T i + D i <= A + D k) /\ (i = k -> 1 <= N) /\
         w i <= N * C i - (if Nat.eqb i k then C k else 0)).
  Proof.
    destruct (last_nat starts r 0 ltac:(lia) eq_refl) as [tO [HtO [Hs Hmax]]].
    pose proof (HD k Hk) as Hdk.
    (* the last demand change point *)
    set (pt := fun x : nat => existsb (fun i => (D i <=? Z.of_nat x + D k) && ((Z.of_nat x + D k - D i) mod T i =? 0)) (seq 0 n)).
    assert (Hpt : forall x, pt x = true <-> dpoint (Z.of_nat x)).
    { intros x. unfold pt. rewrite existsb_exists. split.
      - intros [i [Hi E]]. apply in_seq in Hi. apply andb_true_iff in E. destruct E as [E1 E2]. apply Z.leb_le in E1. apply Z.eqb_eq in E2.
        pose proof (HD i ltac:(lia)). split; [lia|]. exists i, ((Z.of_nat x + D k - D i) / T i). split; [lia|]. split; [apply Z.div_pos; lia|].
        pose proof (Z.div_mod (Z.of_nat x + D k - D i) (T i) ltac:(lia)). lia.
      - intros [_ [i [j [Hi [Hj E]]]]]. exists i. split; [apply in_seq; lia|]. pose proof (HD i Hi). apply andb_true_iff. split; [apply Z.leb_le; nia|].
        apply Z.eqb_eq. rewrite E. replace (D i + j * T i - D i) with (j * T i) by ring. apply Z.mod_mul. lia. }
    assert (P0 : pt 0%nat = true) by (apply Hpt; split; [lia|]; exists k, 0; split; [assumption|]; split; [lia|]; cbn; lia).
    destruct (last_nat pt (r - tO) 0 ltac:(lia) P0) as [A [HA [PA MA]]].
    exists (Z.of_nat A), (carry tO), (contrib A). split; [apply Hpt; assumption|]. split; [apply carry_few; assumption|].
    assert (Har : (A <= r)%nat) by lia.
    assert (Hfull : forall u, (r - A <= u < r)%nat -> full u = true).
    { intros u Hu. specialize (Hmax (S u) ltac:(lia)). cbn [starts] in Hmax. apply negb_false_iff in Hmax. assumption. }
    split; [rewrite <- (contrib_total A Har Hfull); lia|].
    intros i Hi. split; [|split].
    - destruct (Nat.eqb_spec i k) as [->|Ne]; [apply contrib_cap_k; assumption|]. pose proof (contrib_cap A Har i). lia.
    - intros _. destruct (Nat.eqb_spec i k) as [->|Ne]; [apply carry_bound_k; assumption|]. rewrite Z.sub_0_r. apply carry_bound; assumption.
    - intros Hc. destruct (no_carry_bound A Har Hfull tO i Hi ltac:(lia) Hc) as [N [N0 [N1 [N2 N3]]]]. exists N. split; [assumption|].
      split; [|split; [assumption|]].
      + destruct N1 as [Z0|N1]; [left; assumption|]. destruct (Z.eq_dec N 0); [left; assumption|right].
        destruct (Z.le_gt_cases ((N - 1) * T i + D i) (Z.of_nat A + D k)) as [G|G]; [assumption|exfalso].
        set (x := Z.to_nat ((N - 1) * T i + D i - D k)). assert (Ex : Z.of_nat x = (N - 1) * T i + D i - D k) by (unfold x; lia).
        assert (Px : pt x = true) by (apply Hpt; split; [lia|]; exists i, (N - 1); split; [assumption|]; split; [lia|]; lia).
        rewrite (MA x) in Px; [discriminate|]. lia.
      + destruct (Nat.eqb_spec i k) as [E|E]; [rewrite E in *; exact N2|lia].
  Qed.
End Carry.
