(** Busy-window arguments for global EDF: the first deadline miss is preceded by
    a window in which much work is done.  Used for the BAK, BAR and FF-DBF tests. *)
From Coq Require Import ZArith List Bool Lia Wf_nat.
From Verif Require Import Base SpecUni SpecQPA SpecGlobal ProofUni ProofEDF ProofGlobal ProofGFB.
Import ListNotations.
Open Scope Z_scope.

Lemma least_nat : forall (P : nat -> bool) n, P n = true ->
  exists k, (k <= n)%nat /\ P k = true /\ forall j, (j < k)%nat -> P j = false.
Proof.
  intros P n. induction n as [n IH] using (well_founded_induction lt_wf). intros H.
  destruct (existsb P (seq 0 n)) eqn:E.
  - apply existsb_exists in E. destruct E as [j [Hj Pj]]. apply in_seq in Hj.
    destruct (IH j ltac:(lia) Pj) as [k [H1 [H2 H3]]]. exists k. split; [lia|]. split; assumption.
  - exists n. split; [lia|]. split; [assumption|]. intros j Hj. apply not_true_iff_false. intros X.
    assert (T : existsb P (seq 0 n) = true) by (apply existsb_exists; exists j; split; [apply in_seq; lia|assumption]). congruence.
Qed.

(** the greatest k <= n with P k *)
Lemma last_nat : forall (P : nat -> bool) n k0, (k0 <= n)%nat -> P k0 = true ->
  exists k, (k <= n)%nat /\ P k = true /\ forall j, (k < j <= n)%nat -> P j = false.
Proof.
  intros P n k0 Hk H. destruct (least_nat (fun x => P (n - x)%nat) (n - k0)) as [x [H1 [H2 H3]]].
  - replace (n - (n - k0))%nat with k0 by lia. assumption.
  - exists (n - x)%nat. split; [lia|]. split; [assumption|]. intros j Hj. specialize (H3 (n - j)%nat ltac:(lia)).
    replace (n - (n - j))%nat with j in H3 by lia. assumption.
Qed.

(** a sum whose non-zero terms have indices from h0 to h1 *)
Lemma range_sum : forall (a : nat -> Z) C h0 h1 K, (h0 <= h1)%nat -> 0 <= C -> (forall h, 0 <= a h <= C) ->
  (forall h, (h < K)%nat -> a h <> 0 -> (h0 <= h <= h1)%nat) -> sumf a K <= a h0 + Z.of_nat (h1 - h0) * C.
Proof.
  intros a C h0 h1 K L HC Ha H.
  assert (G : forall n, (n <= K)%nat -> sumf a n <= (if (n <=? h0)%nat then 0 else a h0 + Z.of_nat (Nat.min (n - 1) h1 - h0) * C)).
  { induction n as [|n IH]; intros Hn; [cbn; lia|]. cbn [sumf]. specialize (IH ltac:(lia)). specialize (H n ltac:(lia)).
    destruct (Nat.leb_spec n h0); destruct (Nat.leb_spec (S n) h0).
    - destruct (Z.eq_dec (a n) 0); [lia|]. specialize (H n0). lia.
    - assert (n = h0) by lia. subst n. replace (Nat.min (S h0 - 1) h1 - h0)%nat with 0%nat by lia. lia.
    - lia.
    - destruct (Z.eq_dec (a n) 0) as [E|E].
      + rewrite E. assert (Z.of_nat (Nat.min (n - 1) h1 - h0) * C <= Z.of_nat (Nat.min (S n - 1) h1 - h0) * C) by nia. lia.
      + specialize (H E). specialize (Ha n). replace (Nat.min (S n - 1) h1 - h0)%nat with (S (Nat.min (n - 1) h1 - h0)) by lia. nia. }
  specialize (G K ltac:(lia)). pose proof (Ha h0) as H0. destruct (Nat.leb_spec K h0).
  - nia.
  - assert (Z.of_nat (Nat.min (K - 1) h1 - h0) * C <= Z.of_nat (h1 - h0) * C) by nia. lia.
Qed.

Section Busy.
  Variables (ts : list etask) (m : nat) (s : jobseq) (sc : gschedule).
  Let n := length ts.
  Hypothesis Hwf : Forall wf_etask ts.
  Hypothesis Hl : legal_edf ts s.
  Hypothesis Hv : gvalid n m s sc.
  Hypothesis Hp : gedf ts m s sc.
  Hypothesis Hm : (1 <= m)%nat.
  Let C i := e_cost (et ts i).
  Let D i := e_deadline (et ts i).
  Let T i := e_period (et ts i).
  Hypothesis HD : forall i, (i < n)%nat -> 1 <= D i <= T i.
  Variable d : nat.
  (** jobs due before d are on time *)
  Hypothesis IHd : forall i h d', (i < n)%nat -> (d' < d)%nat -> Z.of_nat d' = due ts s (i, h) -> gcompleted s sc (i, h) d'.

  Let I := inI ts s d.

  Lemma inI_iff : forall i h, I i h = true <-> Z.of_nat (arr s i h) + D i <= Z.of_nat d.
  Proof. intros. unfold I, inI, due. cbn [fst snd]. fold (et ts i) (D i). apply Z.leb_le. Qed.

  Lemma inI_idx : forall i h, (i < n)%nat -> I i h = true -> (h < S d)%nat.
  Proof. intros i h Hi H. apply inI_iff in H. pose proof (arr_ge ts s Hwf Hl i h Hi). pose proof (HD i Hi). lia. Qed.

  Lemma pred_done : forall i h h', (i < n)%nat -> I i h = true -> (h' < h)%nat -> gcompleted s sc (i, h') (arr s i h).
  Proof.
    intros i h h' Hi Hin Hh. apply inI_iff in Hin. pose proof (HD i Hi). pose proof (sep_lt ts s Hwf Hl i h' h Hi Hh) as Sp. fold (T i) in Sp.
    apply gcompleted_mono with (a := (arr s i h' + Z.to_nat (D i))%nat); [lia|].
    apply IHd; [assumption|lia|]. unfold due. cbn [fst snd]. fold (et ts i) (D i). lia.
  Qed.

  Lemma inI_pred : forall i h h', (i < n)%nat -> I i h = true -> (h' < h)%nat -> I i h' = true.
  Proof.
    intros i h h' Hi Hin Hh. apply inI_iff in Hin. apply inI_iff. pose proof (HD i Hi).
    pose proof (sep_lt ts s Hwf Hl i h' h Hi Hh) as Sp. fold (T i) in Sp. lia.
  Qed.

  (** on-time completion, as a bound on the work after t *)
  Lemma done_by_due : forall i h t, (i < n)%nat -> I i h = true -> (t < d)%nat -> Z.of_nat (arr s i h) + D i <= Z.of_nat t -> gcompleted s sc (i, h) t.
  Proof.
    intros i h t Hi Hin Ht H. pose proof (HD i Hi). apply gcompleted_mono with (a := (arr s i h + Z.to_nat (D i))%nat); [lia|].
    apply IHd; [assumption|lia|]. unfold due. cbn [fst snd]. fold (et ts i) (D i). lia.
  Qed.

  (** work of the jobs of interest in [0, t) *)
  Definition Sall (t : nat) : Z := sumI ts s d (fun i h => gservice sc (i, h) t).
  Definition Stask (i t : nat) : Z := sumf (fun h => if inI ts s d i h then gservice sc (i, h) t else 0) (S d).

  Lemma Sall_task : forall t, Sall t = sumf (fun i => Stask i t) n.
  Proof. reflexivity. Qed.

  Lemma Stask_mono : forall i a b, (a <= b)%nat -> Stask i a <= Stask i b.
  Proof using. intros. apply sumf_le. intros h _. destruct (inI ts s d i h); [apply gservice_mono; assumption|apply Z.le_refl]. Qed.

  Lemma Sall_step : forall u, Sall (S u) = Sall u + sumI ts s d (fun i h => b2z (gruns sc (i, h) u)).
  Proof.
    intros u. unfold Sall. rewrite <- (sumI_add ts m) by assumption. apply sumI_ext. intros. apply gservice_step.
  Qed.

  Lemma runs_ready_I : forall i h u, (i < n)%nat -> I i h = true -> (arr s i h <= u)%nat ->
    gservice sc (i, h) u < Z.of_nat (cst s i h) -> gready s sc (i, h) u.
  Proof.
    intros i h u Hi Hin Hr Hinc. split; [|split]; cbn [fst snd].
    - rewrite (arr_rel ts s Hwf Hl) by assumption. assumption.
    - assumption.
    - intros h' Hh'. eapply gcompleted_mono; [|apply (pred_done i h h' Hi Hin Hh')]. assumption.
  Qed.

  (** While a job of interest waits, m jobs of interest run. *)
  Lemma busy_window : forall i h x, (i < n)%nat -> I i h = true ->
    gservice sc (i, h) (arr s i h + x) < Z.of_nat (cst s i h) ->
    Sall (arr s i h) + Z.of_nat m * Z.of_nat x - (Z.of_nat m - 1) * gservice sc (i, h) (arr s i h + x) <= Sall (arr s i h + x).
  Proof.
    intros i h x Hi Hin. set (r := arr s i h). induction x; intros Hinc.
    - rewrite Nat.add_0_r. pose proof (gservice_nonneg sc (i, h) r). nia.
    - rewrite Nat.add_succ_r in Hinc |- *. rewrite gservice_step in Hinc |- *. rewrite Sall_step.
      pose proof (b2z_range (gruns sc (i, h) (r + x))) as B.
      specialize (IHx ltac:(lia)).
      destruct (gruns sc (i, h) (r + x)) eqn:E.
      + pose proof (slot_one ts m s sc Hwf Hl Hm HD d (r + x) i h Hi Hin E). cbn [b2z]. lia.
      + assert (Hnr : ~ In (i, h) (sc (r + x)%nat)) by (rewrite <- gruns_iff; congruence).
        cbn [b2z] in Hinc. assert (Hrd : gready s sc (i, h) (r + x)) by (apply runs_ready_I; [assumption|assumption|lia|lia]).
        destruct (Hp (r + x)%nat (i, h) Hi Hrd Hnr) as [B1 B2].
        pose proof (slot_work ts m s sc Hwf Hl Hv Hm HD d (r + x)) as SW. fold n in SW. rewrite B1 in SW.
        assert (Hall : forall j, In j (sc (r + x)%nat) -> due ts s j <= Z.of_nat d).
        { intros j Hj. specialize (B2 j Hj). unfold I, inI in Hin. apply Z.leb_le in Hin. lia. }
        specialize (SW Hall). cbn [b2z]. lia.
  Qed.

  Lemma Stask_window : forall i a b, (a <= b)%nat -> Stask i b - Stask i a <= Z.of_nat (b - a).
  Proof.
    intros i a b L. replace b with (a + (b - a))%nat at 1 by lia. generalize (b - a)%nat as x.
    induction x; [rewrite Nat.add_0_r; lia|]. rewrite Nat.add_succ_r.
    assert (E : Stask i (S (a + x)) <= Stask i (a + x) + 1); [|lia].
    unfold Stask. assert (G : forall K, sumf (fun h => if inI ts s d i h then gservice sc (i, h) (S (a + x)) else 0) K <=
      sumf (fun h => if inI ts s d i h then gservice sc (i, h) (a + x) else 0) K + b2z (existsb (fun h => gruns sc (i, h) (a + x)) (seq 0 K))).
    { induction K; [cbn; lia|]. cbn [sumf]. rewrite seq_S, existsb_app. cbn [existsb plus]. rewrite orb_false_r.
      rewrite gservice_step. destruct (gruns sc (i, K) (a + x)) eqn:EK.
      - assert (N : existsb (fun h => gruns sc (i, h) (a + x)) (seq 0 K) = false).
        { apply not_true_iff_false. intros X. apply existsb_exists in X. destruct X as [h [Hh X]]. apply in_seq in Hh.
          pose proof (one_per_task n m s sc Hv (a + x) i h K X EK). lia. }
        rewrite N in *. cbn [orb b2z] in *. destruct (inI ts s d i K); lia.
      - rewrite orb_false_r. cbn [b2z]. destruct (inI ts s d i K); lia. }
    specialize (G (S d)). pose proof (b2z_range (existsb (fun h => gruns sc (i, h) (a + x)) (seq 0 (S d)))). lia.
  Qed.

  (** work of one job of interest after t *)
  Definition jwork (t i h : nat) : Z := if inI ts s d i h then gservice sc (i, h) d - gservice sc (i, h) t else 0.

  Lemma Stask_jwork : forall i t, Stask i d - Stask i t = sumf (fun h => jwork t i h) (S d).
  Proof using.
    intros i t. rewrite (sumf_ext (fun h => jwork t i h) (fun h => (if inI ts s d i h then gservice sc (i, h) d else 0) + (-1) * (if inI ts s d i h then gservice sc (i, h) t else 0))).
    - rewrite sumf_add, sumf_mul. unfold Stask. ring.
    - intros h _. unfold jwork. destruct (inI ts s d i h); ring.
  Qed.

  Lemma jwork_range : forall t i h, (t <= d)%nat -> (i < n)%nat -> 0 <= jwork t i h <= C i.
  Proof.
    intros t i h Ht Hi. unfold jwork. pose proof (et_legal ts s Hwf Hl i Hi) as [[W1 _] _]. fold (C i) in W1.
    destruct (inI ts s d i h); [|lia]. pose proof (gservice_mono sc (i, h) t d Ht). pose proof (gservice_nonneg sc (i, h) t).
    pose proof (gservice_le_cost n m s sc Hv (i, h) d). pose proof (cst_le ts s Hwf Hl i h Hi). cbn [fst snd] in *. fold (C i) in *. lia.
  Qed.

  (** ** The missed deadline *)
  Variables (k q : nat).
  Hypothesis Hk : (k < n)%nat.
  Hypothesis Hdue : due ts s (k, q) = Z.of_nat d.
  Hypothesis Hmiss : gservice sc (k, q) d < Z.of_nat (cst s k q).

  Lemma miss_in : I k q = true.
  Proof using Hdue. unfold I, inI. rewrite Hdue. apply Z.leb_refl. Qed.

  Lemma miss_arr : Z.of_nat d = Z.of_nat (arr s k q) + D k.
  Proof using Hdue. unfold due in Hdue. cbn [fst snd] in Hdue. fold (et ts k) (D k) in Hdue. symmetry. exact Hdue. Qed.

  (** ** The longest overloaded window, for a rate pp/qq between the density of
      the task that misses and one. *)
  Section Extend.
    Variables pp qq : Z.
    Hypothesis Hqq : 0 < qq.
    Hypothesis Hpp : 0 <= pp <= qq.
    Hypothesis Hdens : C k * qq <= pp * D k.
    Hypothesis Hm2 : (2 <= m)%nat.

    Let mu := Z.of_nat m * qq - (Z.of_nat m - 1) * pp.
    Definition overloaded (t : nat) : bool := (Z.of_nat m * qq - (Z.of_nat m - 1) * pp) * (Z.of_nat d - Z.of_nat t) <? qq * (Sall d - Sall t).

    Lemma overloaded_arrival : overloaded (arr s k q) = true.
    Proof.
      unfold overloaded. apply Z.ltb_lt. fold mu. pose proof miss_arr as Ed. pose proof (HD k Hk) as Hd.
      pose proof (busy_window k q (d - arr s k q) Hk miss_in) as B. replace (arr s k q + (d - arr s k q))%nat with d in B by lia.
      specialize (B Hmiss). pose proof (cst_le ts s Hwf Hl k q Hk) as Hc. fold (C k) in Hc.
      set (y := gservice sc (k, q) d) in *. replace (Z.of_nat (d - arr s k q)) with (D k) in B by lia.
      replace (Z.of_nat d - Z.of_nat (arr s k q)) with (D k) by lia. unfold mu. set (M := Z.of_nat m) in *.
      assert (2 <= M) by (unfold M; lia).
      assert (X1 : qq * (M * D k - (M - 1) * y) <= qq * (Sall d - Sall (arr s k q))) by (apply Z.mul_le_mono_nonneg_l; lia).
      assert (X2 : qq * y < pp * D k) by nia.
      assert (X3 : (M - 1) * (qq * y) < (M - 1) * (pp * D k)) by (apply Z.mul_lt_mono_pos_l; lia).
      nia.
    Qed.

    (** task i has a job of interest that arrived before t and is not complete at t *)
    Definition carries (t i : nat) : bool :=
      existsb (fun h => inI ts s d i h && ((arr s i h <? t)%nat && (gservice sc (i, h) t <? Z.of_nat (cst s i h)))) (seq 0 (S d)).

    Lemma extend_least : forall t0, (t0 < d)%nat -> overloaded t0 = true -> exists t, (t <= t0)%nat /\ overloaded t = true /\ (forall j, (j < t)%nat -> overloaded j = false) /\
      forall i, (i < n)%nat -> exists N phi, 0 <= N /\ 0 <= phi /\ (phi = 0 \/ carries t i = true) /\ Stask i d - Stask i t <= N * C i /\
        (N = 0 \/ (N - 1) * T i + D i <= Z.of_nat d - Z.of_nat t + phi /\ phi < D i /\ pp * phi <= qq * C i /\
                  qq * (Stask i d - Stask i t) <= qq * (N * C i) - pp * phi).
    Proof.
      intros t0 Ht0 Ho0. destruct (least_nat overloaded t0 Ho0) as [t [Ht [Ho Hmin]]].
      exists t. split; [assumption|]. split; [assumption|]. split; [exact Hmin|]. intros i Hi.
      pose proof miss_arr as Ed. pose proof (HD k Hk) as Hdk. pose proof (HD i Hi) as Hdi.
      assert (Htd : (t < d)%nat) by lia.
      pose proof (et_legal ts s Hwf Hl i Hi) as [[W1 _] _]. fold (C i) in W1.
      rewrite Stask_jwork. set (a := fun h => jwork t i h).
      assert (Ha : forall h, 0 <= a h <= C i) by (intros; apply jwork_range; [lia|assumption]).
      destruct (existsb (fun h => negb (a h =? 0)) (seq 0 (S d))) eqn:Ex.
      - apply existsb_exists in Ex. destruct Ex as [hx [Hx Px]]. apply in_seq in Hx.
        destruct (least_nat (fun h => negb (a h =? 0)) hx Px) as [h0 [L0 [P0 M0]]].
        destruct (last_nat (fun h => negb (a h =? 0)) d hx ltac:(lia) Px) as [h1 [L1 [P1 M1]]].
        assert (L01 : (h0 <= h1)%nat).
        { destruct (Nat.le_gt_cases h0 h1); [assumption|]. specialize (M0 h1 ltac:(lia)). congruence. }
        assert (In0 : I i h0 = true).
        { unfold a, jwork in P0. unfold I. destruct (inI ts s d i h0); [reflexivity|]. cbn in P0. congruence. }
        assert (In1 : I i h1 = true).
        { unfold a, jwork in P1. unfold I. destruct (inI ts s d i h1); [reflexivity|]. cbn in P1. congruence. }
        apply negb_true_iff, Z.eqb_neq in P0.
        pose proof (range_sum a (C i) h0 h1 (S d) L01 W1 Ha) as RS.
        assert (RS' : sumf a (S d) <= a h0 + Z.of_nat (h1 - h0) * C i).
        { apply RS. intros h Hh Nh. split.
          - destruct (Nat.le_gt_cases h0 h); [assumption|]. specialize (M0 h ltac:(lia)). apply negb_false_iff, Z.eqb_eq in M0. contradiction.
          - destruct (Nat.le_gt_cases h h1); [assumption|]. specialize (M1 h ltac:(lia)). apply negb_false_iff, Z.eqb_eq in M1. contradiction. }
        clear RS. exists (Z.of_nat (h1 - h0) + 1), (Z.max 0 (Z.of_nat t - Z.of_nat (arr s i h0))).
        split; [lia|]. split; [lia|]. split.
        { destruct (Z.le_gt_cases (Z.of_nat t) (Z.of_nat (arr s i h0))) as [Le|Le]; [left; lia|right]. apply existsb_exists. exists h0.
          split; [apply in_seq; pose proof (inI_idx i h0 Hi In0); lia|]. fold I. rewrite In0. cbn [andb]. apply andb_true_iff. split; [apply Nat.ltb_lt; lia|]. apply Z.ltb_lt.
          unfold a, jwork in P0. fold I in P0. rewrite In0 in P0. pose proof (gservice_le_cost n m s sc Hv (i, h0) d) as Z1. cbn [fst snd] in Z1.
          pose proof (gservice_mono sc (i, h0) t d ltac:(lia)). lia. }
        split; [specialize (Ha h0); nia|]. right.
        assert (Sep : Z.of_nat (arr s i h0) + Z.of_nat (h1 - h0) * T i <= Z.of_nat (arr s i h1)).
        { replace h1 with (h0 + (h1 - h0))%nat at 2 by lia. generalize (h1 - h0)%nat as x. induction x; [rewrite Nat.add_0_r; lia|].
          rewrite Nat.add_succ_r. pose proof (sep ts s Hwf Hl i (h0 + x) Hi) as Sx. fold (T i) in Sx. lia. }
        apply inI_iff in In1. pose proof In0 as In0'. apply inI_iff in In0'.
        split; [lia|].
        destruct (Z.le_gt_cases (Z.of_nat t) (Z.of_nat (arr s i h0))) as [Le|Le].
        + rewrite Z.max_l by lia. split; [lia|]. split; [nia|]. specialize (Ha h0). nia.
        + rewrite Z.max_r by lia. set (phi := Z.of_nat t - Z.of_nat (arr s i h0)) in *.
          assert (Hinc : gservice sc (i, h0) t < Z.of_nat (cst s i h0)).
          { unfold a, jwork in P0. fold I in P0. rewrite In0 in P0. pose proof (gservice_le_cost n m s sc Hv (i, h0) d) as Z1. cbn [fst snd] in Z1.
            pose proof (gservice_mono sc (i, h0) t d ltac:(lia)). lia. }
          assert (Hphi : phi < D i).
          { destruct (Z.lt_ge_cases phi (D i)) as [x|x]; [assumption|exfalso].
            pose proof (done_by_due i h0 t Hi In0 Htd ltac:(unfold phi in x; lia)) as G. unfold gcompleted in G. cbn [fst snd] in G. lia. }
          split; [assumption|].
          set (r0 := arr s i h0) in *. pose proof (busy_window i h0 (t - r0) Hi In0) as B. fold r0 in B.
          replace (r0 + (t - r0))%nat with t in B by lia. specialize (B Hinc).
          specialize (Hmin r0 ltac:(unfold phi in *; lia)). unfold overloaded in Hmin, Ho. apply Z.ltb_ge in Hmin. apply Z.ltb_lt in Ho. fold mu in Hmin, Ho.
          replace (Z.of_nat (t - r0)) with phi in B by (unfold phi; lia).
          set (y := gservice sc (i, h0) t) in *. set (M := Z.of_nat m) in *. assert (2 <= M) by (unfold M; lia).
          assert (Y1 : qq * (Sall t - Sall r0) < mu * phi) by (unfold phi; nia).
          assert (Y2 : qq * (M * phi - (M - 1) * y) <= qq * (Sall t - Sall r0)) by (apply Z.mul_le_mono_nonneg_l; lia).
          assert (Y3 : (M - 1) * (pp * phi) < (M - 1) * (qq * y)) by (unfold mu in Y1; nia).
          apply Z.mul_lt_mono_pos_l in Y3; [|lia].
          pose proof (cst_le ts s Hwf Hl i h0 Hi) as Hc. fold (C i) in Hc.
          assert (Ha0 : a h0 <= C i - y).
          { unfold a, jwork. fold I. rewrite In0. pose proof (gservice_le_cost n m s sc Hv (i, h0) d) as Z1. cbn [fst snd] in Z1. unfold y. lia. }
          split; [nia|]. nia.
      - exists 0, 0. split; [lia|]. split; [lia|]. split; [left; reflexivity|]. split; [|left; reflexivity].
        rewrite (sumf_zero a); [lia|]. intros h Hh. destruct (Z.eq_dec (a h) 0) as [e|e]; [assumption|exfalso].
        assert (X : existsb (fun h => negb (a h =? 0)) (seq 0 (S d)) = true); [|congruence].
        apply existsb_exists. exists h. split; [apply in_seq; lia|]. apply negb_true_iff, Z.eqb_neq. assumption.
    Qed.

    Lemma extend_from : forall t0, (t0 < d)%nat -> overloaded t0 = true -> exists t, (t <= t0)%nat /\ overloaded t = true /\
      forall i, (i < n)%nat -> exists N phi, 0 <= N /\ 0 <= phi /\ Stask i d - Stask i t <= N * C i /\
        (N = 0 \/ (N - 1) * T i + D i <= Z.of_nat d - Z.of_nat t + phi /\ phi < D i /\ pp * phi <= qq * C i /\
                  qq * (Stask i d - Stask i t) <= qq * (N * C i) - pp * phi).
    Proof.
      intros t0 Ht0 Ho0. destruct (extend_least t0 Ht0 Ho0) as [t [Ht [Ho [_ H]]]]. exists t. split; [assumption|]. split; [assumption|]. intros i Hi.
      destruct (H i Hi) as [N [phi [A [B [_ X]]]]]. exists N, phi. auto.
    Qed.

    (** fewer tasks than the rate carry work into the leftmost overloaded window *)
    Lemma carry_count : forall t, (t < d)%nat -> overloaded t = true -> (forall j, (j < t)%nat -> overloaded j = false) ->
      qq * sumf (fun i => b2z (carries t i)) n < Z.of_nat m * qq - (Z.of_nat m - 1) * pp.
    Proof.
      intros t Ht Ho Hmin. fold mu. set (M := Z.of_nat m) in *. assert (M2 : 2 <= M) by (unfold M; lia). destruct t as [|u].
      { rewrite (sumf_zero (fun i => b2z (carries 0 i))); [unfold mu; fold M; nia|]. intros i _.
        destruct (carries 0 i) eqn:E; [|reflexivity]. apply existsb_exists in E. destruct E as [h [_ E]]. rewrite !andb_true_iff in E. destruct E as [_ [E _]]. discriminate. }
      specialize (Hmin u ltac:(lia)). unfold overloaded in Ho, Hmin. apply Z.ltb_lt in Ho. apply Z.ltb_ge in Hmin. fold mu in Ho, Hmin.
      rewrite Sall_step in Ho. set (w := sumI ts s d (fun i h => b2z (gruns sc (i, h) u))) in *.
      assert (W1 : qq * w < mu) by nia. assert (W2 : w < M) by (unfold mu in W1; fold M in W1; nia).
      enough (E : sumf (fun i => b2z (carries (S u) i)) n <= w) by nia.
      unfold w, sumI. apply sumf_le. intros i Hi. destruct (carries (S u) i) eqn:E; cbn [b2z].
      2:{ apply sumf_nonneg. intros h _. pose proof (b2z_range (gruns sc (i, h) u)). destruct (inI ts s d i h); lia. }
      apply existsb_exists in E. destruct E as [h [Hh E]]. rewrite !andb_true_iff in E. destruct E as [Hin [E1 E2]]. fold I in Hin. apply Nat.ltb_lt in E1. apply Z.ltb_lt in E2.
      pose proof (gservice_mono sc (i, h) u (S u) ltac:(lia)) as G.
      assert (R : gruns sc (i, h) u = true).
      { destruct (gruns sc (i, h) u) eqn:R; [reflexivity|exfalso].
        assert (Hnr : ~ In (i, h) (sc u)) by (rewrite <- gruns_iff; congruence).
        assert (Hrd : gready s sc (i, h) u) by (apply runs_ready_I; [assumption|assumption|lia|lia]).
        destruct (Hp u (i, h) Hi Hrd Hnr) as [B1 B2]. pose proof (slot_work ts m s sc Hwf Hl Hv Hm HD d u) as SW. fold n in SW. rewrite B1 in SW.
        assert (Hall : forall j, In j (sc u) -> due ts s j <= Z.of_nat d).
        { intros j Hj. specialize (B2 j Hj). unfold I, inI in Hin. apply Z.leb_le in Hin. lia. }
        specialize (SW Hall). fold w M in SW. lia. }
      apply in_seq in Hh. transitivity ((fun h => if inI ts s d i h then b2z (gruns sc (i, h) u) else 0) h).
      - cbv beta. fold I. rewrite Hin, R. cbn. lia.
      - apply (sumf_term_le (fun h => if inI ts s d i h then b2z (gruns sc (i, h) u) else 0)); [lia|].
        intros h' _. pose proof (b2z_range (gruns sc (i, h') u)). destruct (inI ts s d i h'); lia.
    Qed.

    Lemma extend : exists t, (t <= arr s k q)%nat /\ overloaded t = true /\
      forall i, (i < n)%nat -> exists N phi, 0 <= N /\ 0 <= phi /\ Stask i d - Stask i t <= N * C i /\
        (N = 0 \/ (N - 1) * T i + D i <= Z.of_nat d - Z.of_nat t + phi /\ phi < D i /\ pp * phi <= qq * C i /\
                  qq * (Stask i d - Stask i t) <= qq * (N * C i) - pp * phi).
    Proof. apply extend_from; [|apply overloaded_arrival]. pose proof miss_arr. pose proof (HD k Hk). lia. Qed.
  End Extend.
End Busy.
