(** Work in a window of a global schedule, and soundness of the global
    fixed-priority response-time recurrences. *)
From Coq Require Import ZArith List Bool Lia Permutation.
From Verif Require Import Base SpecUni SpecQPA SpecGlobal SpecGFP ProofUni ProofEDF ProofGlobal ProofGEDFRta.
Import ListNotations.
Open Scope Z_scope.

(** ** Work of one task's jobs released from some time on *)
Section Tail.
  Variables (C T e : Z) (a A : nat -> Z).
  Hypothesis HC : 0 <= C <= T.
  Hypothesis HT : 1 <= T.
  Hypothesis Hsep : forall h, A h + T <= A (S h).
  Hypothesis Ha : forall h, a h <= C.
  Hypothesis Hrel : forall h, a h <= Z.max 0 (e - A h).

  Lemma tail_work : forall K lo y, e - A lo <= y -> sumf (fun d => a (lo + d)%nat) K <= wl C T y.
  Proof.
    induction K; intros lo y Hy; [cbn; apply wl_nonneg; lia|].
    rewrite (sumf_split _ 1 K). cbn [sumf plus].
    rewrite (sumf_ext (fun k => a (lo + S k)%nat) (fun k => a (S lo + k)%nat)) by (intros; f_equal; lia).
    rewrite Nat.add_0_r. pose proof (Ha lo). pose proof (Hrel lo). pose proof (Hsep lo).
    apply Z.le_trans with (wl C T (e - A lo)); [|apply wl_lipschitz; lia].
    destruct (Z.le_gt_cases T (e - A lo)) as [L|L].
    - rewrite wl_step by lia. specialize (IHK (S lo) (e - A lo - T) ltac:(lia)). lia.
    - specialize (IHK (S lo) (-1) ltac:(lia)). assert (wl C T (-1) = 0) by reflexivity.
      destruct (Z.le_gt_cases 0 (e - A lo)).
      + rewrite wl_small by lia. lia.
      + pose proof (wl_nonneg C T (e - A lo)). lia.
  Qed.
End Tail.

Section Win.
  Variables (ts : list etask) (m : nat) (s : jobseq) (sc : gschedule).
  Let n := length ts.
  Hypothesis Hwf : Forall wf_etask ts.
  Hypothesis Hl : legal_edf ts s.
  Hypothesis Hv : gvalid n m s sc.
  Variables (a L : nat).

  Definition jw (i h : nat) : Z := gservice sc (i, h) (a + L) - gservice sc (i, h) a.
  Definition tw (i : nat) : Z := sumf (fun d => b2z (trun sc i (a + d))) L.

  Lemma jw_eq : forall i h, jw i h = sumf (fun d => b2z (gruns sc (i, h) (a + d))) L.
  Proof. intros. unfold jw. rewrite gservice_window. lia. Qed.

  Lemma jw_range : forall i h, (i < n)%nat -> 0 <= jw i h <= e_cost (et ts i).
  Proof.
    intros i h Hi. unfold jw. pose proof (gservice_mono sc (i, h) a (a + L) ltac:(lia)). pose proof (gservice_nonneg sc (i, h) a).
    pose proof (gservice_le_cost n m s sc Hv (i, h) (a + L)). pose proof (cst_le ts s Hwf Hl i h Hi). cbn [fst snd] in *. lia.
  Qed.

  Lemma jw_len : forall i h, jw i h <= Z.of_nat L.
  Proof.
    intros. rewrite jw_eq. eapply Z.le_trans; [apply sumf_le with (g := fun _ => 1)|rewrite sumf_const; clear; lia].
    intros. apply b2z_range.
  Qed.

  Lemma gservice_span : forall j x y, (x <= y)%nat -> gservice sc j y - gservice sc j x <= Z.of_nat (y - x).
  Proof.
    intros j x y H. replace y with (x + (y - x))%nat at 1 by lia. rewrite gservice_window.
    enough (sumf (fun u => b2z (gruns sc j (x + u))) (y - x) <= 1 * Z.of_nat (y - x)) by lia.
    rewrite <- sumf_const. apply sumf_le. intros. apply b2z_range.
  Qed.

  Lemma jw_until : forall i h e, gcompleted s sc (i, h) e -> jw i h <= Z.max 0 (Z.of_nat e - Z.of_nat a).
  Proof.
    intros i h e Hc. unfold jw.
    destruct (Nat.le_gt_cases e a) as [G|G].
    - rewrite (gservice_frozen n m s sc Hv (i, h) e (a + L)), (gservice_frozen n m s sc Hv (i, h) e a) by (assumption || lia). lia.
    - destruct (Nat.le_gt_cases e (a + L)) as [G1|G1].
      + rewrite (gservice_frozen n m s sc Hv (i, h) e (a + L)) by assumption.
        pose proof (gservice_span (i, h) a e ltac:(lia)). lia.
      + pose proof (gservice_span (i, h) a (a + L) ltac:(lia)). lia.
  Qed.

  Lemma jw_rel : forall i h, (i < n)%nat -> jw i h <= Z.max 0 (Z.of_nat a + Z.of_nat L - Z.of_nat (arr s i h)).
  Proof.
    intros i h Hi. destruct (Nat.le_gt_cases (arr s i h) a) as [Le|Le]; [pose proof (jw_len i h); lia|].
    pose proof (arr_rel ts s Hwf Hl i h Hi) as Er. unfold jw.
    rewrite (gservice_before_release n m s sc Hv (i, h) a) by (cbn; lia).
    destruct (Nat.le_gt_cases (a + L) (arr s i h)) as [Lf|Lf].
    - rewrite (gservice_before_release n m s sc Hv (i, h) (a + L)) by (cbn; lia). lia.
    - pose proof (gservice_span (i, h) (arr s i h) (a + L) ltac:(lia)).
      rewrite (gservice_before_release n m s sc Hv (i, h) (arr s i h)) in H by (cbn; lia). lia.
  Qed.

  Lemma tw_jobs : forall i, (i < n)%nat -> tw i <= sumf (fun h => jw i h) (a + L).
  Proof.
    intros i Hi. rewrite (sumf_ext (fun h => jw i h) (fun h => sumf (fun d => b2z (gruns sc (i, h) (a + d))) L)) by (intros; apply jw_eq).
    rewrite sumf_swap. apply sumf_le. intros d Hd.
    destruct (trun sc i (a + d)) eqn:E.
    - apply trun_iff in E. destruct E as [h E].
      assert (Hh : (h < a + L)%nat).
      { apply (gruns_ready n m s sc Hv) in E. destruct E as [_ [E _]]. cbn in E. rewrite (arr_rel ts s Hwf Hl) in E by assumption.
        pose proof (arr_ge ts s Hwf Hl i h Hi). lia. }
      pose proof (sumf_term_le (fun h => b2z (gruns sc (i, h) (a + d))) (a + L) h Hh
        ltac:(intros; pose proof (b2z_range (gruns sc (i, i0) (a + d))); lia)) as X. cbn beta in X. rewrite E in X. exact X.
    - cbn [b2z]. apply sumf_nonneg. intros. pose proof (b2z_range (gruns sc (i, k) (a + d))). lia.
  Qed.

  Lemma tw_nonneg : forall i, 0 <= tw i.
  Proof. intros. apply sumf_nonneg. intros k _. pose proof (b2z_range (trun sc i (a + k))). lia. Qed.

  (** [R] bounds the response times of task i *)
  Definition resp (i : nat) (R : Z) : Prop := forall h e, Z.of_nat e = Z.of_nat (arr s i h) + R -> gcompleted s sc (i, h) e.

  Lemma jw_fin : forall i h R, (i < n)%nat -> resp i R -> 0 <= R -> jw i h <= Z.max 0 (Z.of_nat (arr s i h) + R - Z.of_nat a).
  Proof.
    intros i h R Hi HR H0. assert (E : Z.of_nat (arr s i h + Z.to_nat R) = Z.of_nat (arr s i h) + R) by lia. pose proof (jw_until i h _ (HR h _ E)). lia.
  Qed.

  Lemma et_ok : forall i, (i < n)%nat -> 0 <= e_cost (et ts i) /\ 1 <= e_period (et ts i).
  Proof. intros i Hi. pose proof (et_legal ts s Hwf Hl i Hi) as [[W1 [W2 W3]] _]. split; assumption. Qed.

  (** any window *)
  Lemma tw_any : forall i R, (i < n)%nat -> resp i R -> e_cost (et ts i) <= R -> e_cost (et ts i) <= e_period (et ts i) ->
    tw i <= wl (e_cost (et ts i)) (e_period (et ts i)) (Z.of_nat L + R - e_cost (et ts i)).
  Proof.
    intros i R Hi HR HC HT. destruct (et_ok i Hi). eapply Z.le_trans; [apply tw_jobs; assumption|].
    apply (workload_any (e_cost (et ts i)) (e_period (et ts i)) R (Z.of_nat a) (fun h => jw i h) (fun h => Z.of_nat (arr s i h))); try lia.
    - intros h. apply (sep ts s Hwf Hl i h Hi).
    - intros h. apply jw_range. assumption.
    - intros h. apply jw_fin; [assumption|assumption|lia].
    - intros h. apply jw_len.
    - intros h. apply jw_rel. assumption.
  Qed.

  (** first job that arrives at a or later *)
  Lemma first_from : forall i, (i < n)%nat -> exists lo, (a <= arr s i lo)%nat /\ forall h, (h < lo)%nat -> (arr s i h < a)%nat.
  Proof.
    intros i Hi. assert (G : (a <= arr s i a)%nat) by (apply (arr_ge ts s Hwf Hl); assumption).
    assert (X : forall x, (a <= arr s i x)%nat -> exists lo, (a <= arr s i lo)%nat /\ forall h, (h < lo)%nat -> (arr s i h < a)%nat).
    { induction x as [x IH] using (well_founded_induction lt_wf). intros Hx.
      destruct x as [|x]; [exists 0%nat; split; [assumption|intros; lia]|].
      destruct (Nat.le_gt_cases a (arr s i x)) as [G1|G1]; [apply (IH x); [lia|assumption]|].
      exists (S x). split; [assumption|]. intros h Hh. destruct (Nat.eq_dec h x) as [->|E]; [assumption|].
      pose proof (sep_lt ts s Hwf Hl i h x Hi ltac:(lia)). destruct (et_ok i Hi). lia. }
    apply (X a G).
  Qed.

  Lemma tail_jobs : forall i lo K y, (i < n)%nat -> e_cost (et ts i) <= e_period (et ts i) -> Z.of_nat a + Z.of_nat L - Z.of_nat (arr s i lo) <= y ->
    sumf (fun d => jw i (lo + d)) K <= wl (e_cost (et ts i)) (e_period (et ts i)) y.
  Proof.
    intros i lo K y Hi HT Hy. destruct (et_ok i Hi).
    apply (tail_work (e_cost (et ts i)) (e_period (et ts i)) (Z.of_nat a + Z.of_nat L) (fun h => jw i h) (fun h => Z.of_nat (arr s i h))); try lia.
    - intros h. apply (sep ts s Hwf Hl i h Hi).
    - intros h. apply jw_range. assumption.
    - intros h. apply jw_rel. assumption.
  Qed.

  Lemma sum_jobs_split : forall i lo, (i < n)%nat ->
    sumf (fun h => jw i h) (a + L) <= sumf (fun h => jw i h) lo + sumf (fun d => jw i (lo + d)) (a + L).
  Proof.
    intros i lo Hi. pose proof (sumf_split (fun h => jw i h) lo (a + L)) as E1. pose proof (sumf_split (fun h => jw i h) (a + L) lo) as E2. cbn beta in E1, E2. rewrite (Nat.add_comm lo) in E1.
    assert (0 <= sumf (fun k => jw i (a + L + k)) lo) by (apply sumf_nonneg; intros; apply jw_range; assumption). lia.
  Qed.

  (** all jobs that arrived before a are complete at a *)
  Lemma tw_nocarry : forall i, (i < n)%nat -> e_cost (et ts i) <= e_period (et ts i) ->
    (forall h, (arr s i h < a)%nat -> gcompleted s sc (i, h) a) ->
    tw i <= wl (e_cost (et ts i)) (e_period (et ts i)) (Z.of_nat L).
  Proof.
    intros i Hi HT Hdone. destruct (first_from i Hi) as [lo [L1 L2]].
    eapply Z.le_trans; [apply tw_jobs; assumption|]. eapply Z.le_trans; [apply (sum_jobs_split i lo Hi)|].
    rewrite (sumf_zero (fun h => jw i h)).
    - pose proof (tail_jobs i lo (a + L) (Z.of_nat L) Hi HT ltac:(lia)). lia.
    - intros h Hh. pose proof (jw_until i h a (Hdone h (L2 h Hh))). pose proof (jw_range i h Hi). lia.
  Qed.

  (** Guan's bound for a task that is running just before the window *)
  Definition ci_bound (C T R x : Z) : Z :=
    Z.max (x - C) 0 / T * C + C + Z.min (Z.max (Z.max 0 (x - C) mod T - (T - R)) 0) (C - 1).

  Lemma ci_bound_ok : forall C T R x y, 1 <= C -> C <= R -> R <= T -> 0 <= x -> 1 <= y ->
    Z.min y (C - 1) + wl C T (x - (T - R) - y) <= ci_bound C T R x.
  Proof.
    clear. intros C T R x y HC HR HT Hx Hy.
    assert (G : Z.min y (C - 1) + wl C T (x - (T - R) - y) <= C - 1 + wl C T (x - (T - R) - (C - 1))).
    { destruct (Z.le_gt_cases (C - 1) y) as [G|G].
      - pose proof (wl_lipschitz C T (x - (T - R) - y) (x - (T - R) - (C - 1)) ltac:(lia) ltac:(lia) ltac:(lia)). lia.
      - pose proof (wl_lipschitz C T (x - (T - R) - (C - 1)) (x - (T - R) - y) ltac:(lia) ltac:(lia) ltac:(lia)). lia. }
    eapply Z.le_trans; [exact G|]. clear G y Hy. unfold ci_bound. set (z := T - R). assert (Hz : 0 <= z) by (unfold z; lia).
    rewrite (Z.max_comm (x - C) 0). set (w := Z.max 0 (x - C)). assert (Hw : 0 <= w) by (unfold w; lia).
    pose proof (Z.div_mod w T ltac:(lia)) as E. pose proof (Z.mod_pos_bound w T ltac:(lia)) as B.
    assert (Q0 : 0 <= w / T) by (apply Z.div_pos; lia). set (q := w / T) in *. set (r := w mod T) in *.
    assert (Mono : wl C T (x - z - (C - 1)) <= wl C T (w - z + 1)) by (apply wl_lipschitz; unfold w; lia).
    destruct (Z.le_gt_cases 0 (r - z + 1)) as [G|G].
    - assert (wl C T (w - z + 1) <= q * C + Z.min C (r - z + 1)).
      { unfold wl. destruct (Z.ltb_spec (w - z + 1) 0); [nia|].
        destruct (Z.eq_dec (r - z + 1) T) as [Eq|Ne].
        - assert (Ed : (w - z + 1) / T = q + 1) by (symmetry; apply Z.div_unique with 0; lia).
          assert (Em : (w - z + 1) mod T = 0) by (symmetry; apply Z.mod_unique with (q + 1); lia). rewrite Ed, Em. nia.
        - assert (Ed : (w - z + 1) / T = q) by (symmetry; apply Z.div_unique with (r - z + 1); lia).
          assert (Em : (w - z + 1) mod T = r - z + 1) by (symmetry; apply Z.mod_unique with q; lia). rewrite Ed, Em. lia. }
      lia.
    - assert (wl C T (w - z + 1) <= q * C).
      { unfold wl. destruct (Z.ltb_spec (w - z + 1) 0) as [G1|G1]; [nia|].
        assert (1 <= q) by nia. assert (z <= T) by (unfold z; lia).
        assert (Ed : (w - z + 1) / T = q - 1) by (symmetry; apply Z.div_unique with (r - z + 1 + T); lia). rewrite Ed.
        assert (Z.min C ((w - z + 1) mod T) <= C) by lia. nia. }
      lia.
  Qed.

  Lemma ci_bound_ge : forall C T R x, 1 <= C -> C <= R -> R <= T -> 0 <= x -> wl C T x <= ci_bound C T R x.
  Proof.
    clear. intros C T R x H1 HC HT Hx. unfold ci_bound, wl. destruct (Z.ltb_spec x 0); [lia|].
    rewrite (Z.max_comm (x - C) 0).
    pose proof (Z.div_mod x T ltac:(lia)) as E. pose proof (Z.mod_pos_bound x T ltac:(lia)) as B.
    assert (Q0 : 0 <= x / T) by (apply Z.div_pos; lia). set (q := x / T) in *. set (r := x mod T) in *.
    destruct (Z.le_gt_cases C r) as [G|G].
    - rewrite Z.max_r by nia. assert (Ed : (x - C) / T = q) by (symmetry; apply Z.div_unique with (r - C); lia). rewrite Ed. nia.
    - destruct (Z.eq_dec q 0) as [Q|Q].
      + assert (x = r) by nia. rewrite Z.max_l by lia. rewrite Z.div_0_l by lia. nia.
      + assert (1 <= q) by lia. rewrite Z.max_r by nia.
        assert (Ed : (x - C) / T = q - 1) by (symmetry; apply Z.div_unique with (T + r - C); lia).
        assert (Em : (x - C) mod T = T + r - C) by (symmetry; apply Z.mod_unique with (q - 1); lia). rewrite Ed, Em. nia.
  Qed.

  Lemma tw_carry : forall i R, (i < n)%nat -> resp i R -> e_cost (et ts i) <= R -> R <= e_period (et ts i) -> 1 <= e_cost (et ts i) ->
    (forall h, (arr s i h < a)%nat -> gservice sc (i, h) a < Z.of_nat (cst s i h) -> 1 <= gservice sc (i, h) a) ->
    tw i <= ci_bound (e_cost (et ts i)) (e_period (et ts i)) R (Z.of_nat L).
  Proof.
    intros i R Hi HR HC HT H1 Hrun. destruct (et_ok i Hi) as [K1 K2]. set (C := e_cost (et ts i)) in *. set (T := e_period (et ts i)) in *.
    destruct (first_from i Hi) as [lo [L1 L2]].
    eapply Z.le_trans; [apply tw_jobs; assumption|]. eapply Z.le_trans; [apply (sum_jobs_split i lo Hi)|].
    destruct lo as [|c].
    { cbn [sumf]. pose proof (tail_jobs i 0 (a + L) (Z.of_nat L) Hi ltac:(fold C T; lia) ltac:(lia)) as X. fold C T in X.
      pose proof (ci_bound_ge C T R (Z.of_nat L) H1 HC HT ltac:(lia)).
      lia. }
    cbn [sumf]. rewrite (sumf_zero (fun h => jw i h) c).
    2:{ intros h Hh. pose proof (sep_lt ts s Hwf Hl i h c Hi Hh) as Sp. fold T in Sp. pose proof (L2 c ltac:(lia)).
        pose proof (jw_fin i h R Hi HR ltac:(lia)). pose proof (jw_range i h Hi). lia. }
    pose proof (L2 c ltac:(lia)) as Lc. pose proof (sep ts s Hwf Hl i c Hi) as Sp. fold T in Sp.
    set (y := Z.of_nat (arr s i c) + R - Z.of_nat a).
    pose proof (tail_jobs i (S c) (a + L) (Z.of_nat L - (T - R) - y) Hi ltac:(fold C T; lia) ltac:(unfold y; lia)) as Tl. fold C T in Tl.
    pose proof (jw_fin i c R Hi HR ltac:(lia)) as F. fold y in F. pose proof (jw_range i c Hi) as [J0 _].
    assert (J1 : jw i c <= C - 1).
    { destruct (Z.lt_ge_cases (gservice sc (i, c) a) (Z.of_nat (cst s i c))) as [In|In].
      - specialize (Hrun c Lc In). unfold jw. pose proof (gservice_le_cost n m s sc Hv (i, c) (a + L)). pose proof (cst_le ts s Hwf Hl i c Hi).
        cbn [fst snd] in *. fold C in H0. lia.
      - pose proof (jw_until i c a In). lia. }
    destruct (Z.le_gt_cases 1 y) as [Gy|Gy].
    - pose proof (ci_bound_ok C T R (Z.of_nat L) y H1 HC HT ltac:(lia) Gy). lia.
    - (* the last early job is complete at a *)
      assert (jw i c = 0) by lia.
      pose proof (tail_jobs i (S c) (a + L) (Z.of_nat L) Hi ltac:(fold C T; lia) ltac:(lia)) as X. fold C T in X.
      pose proof (ci_bound_ge C T R (Z.of_nat L) H1 HC HT ltac:(lia)). lia.
  Qed.
End Win.
