(** C68, C69: the success probability of replicated CAN messages and FIT rates. *)
From Coq Require Import Reals Lra ZArith List Bool Arith Lia.
From Verif Require Import Base ModelCAN SpecCAN ProofCAN PropCAN ModelCANProb SpecCANProb ProofCANProb PropCANProb ModelCANSuccess SpecCANSuccess ProofCANSuccess.
Import ListNotations.
Local Open Scope R_scope.

(** powerset yields every subset of a non-empty list exactly once. *)
Theorem C68_powerset : forall ids, ids <> [] -> NoDup ids ->
  NoDup (powerset ids) /\ (forall o, In o (powerset ids) <-> subseq o ids).
Proof.
  intros ids N D. split; [apply powerset_nodup; exact D|]. clear D. induction ids as [|x r IH]; [congruence|]. intros o. destruct r as [|y r].
  - cbn. split.
    + intros [<-|[<-|[]]]; [apply sub_keep|apply sub_skip]; constructor.
    + intros H. inversion H as [|? ? ? H1|? ? ? H1]; subst; inversion H1; subst; auto.
  - change (powerset (x :: y :: r)) with (flat_map (fun item => [item; x :: item]) (powerset (y :: r))). rewrite in_flat_map. specialize (IH ltac:(discriminate)). split.
    + intros [i [Hi [<-|[<-|[]]]]]; apply IH in Hi; [apply sub_skip|apply sub_keep]; exact Hi.
    + intros H. inversion H as [|? ? ? H1|? o' ? H1]; subst.
      * exists o. split; [apply IH; exact H1|left; reflexivity].
      * exists o'. split; [apply IH; exact H1|right; left; reflexivity].
Qed.
Print Assumptions C68_powerset.

Example C68_powerset_case : powerset [1; 2; 3]%Z = [[3]; [1; 3]; [2; 3]; [1; 2; 3]; []; [1]; [2]; [1; 2]]%Z.
Proof. reflexivity. Qed.

(** The binomial sums: the probability that the correct ones among [k] timely
    replicas are a strict majority of these, or of all [r]. *)
Theorem C68_correct : forall k pc r, get_prob_correct_sync k pc = probability pc k (fun l => Nat.ltb k (2 * count false l)) /\
  get_prob_correct_async k pc (S (Nat.div r 2)) = probability pc k (fun l => Nat.ltb r (2 * count false l)).
Proof.
  intros k pc r. split.
  - rewrite (sync_probability k pc r). apply expect_ext. intros l L. unfold majority. rewrite L. reflexivity.
  - rewrite async_probability. reflexivity.
Qed.
Print Assumptions C68_correct.

(** With [bound] faults no replica is in time: exists for all message sets. *)
Theorem C68_bound : forall b ms bound x, wf_bus b -> (forall y, In y ms -> wf_msg (r_msg y)) -> In x ms ->
  (cm_deadline (r_msg x) <= Z.of_nat bound)%Z -> ~ in_time (r_msg x) (wctt b (map r_msg ms) (r_msg x) (Z.of_nat bound)).
Proof.
  intros b ms bound x WB WM Hx L H. assert (WC : forall y, In y (map r_msg ms) -> wf_msg y) by (intros y Hy; apply in_map_iff in Hy; destruct Hy as [z [<- Hz]]; apply WM; exact Hz).
  pose proof (win_large b (map r_msg ms) (r_msg x) WB WC (in_map r_msg _ _ Hx) bound H). unfold in_time in H. destruct (WM x Hx) as [_ [_ J]]. lia.
Qed.
Print Assumptions C68_bound.

(** get_prob_schedulable ends and returns exactly the probability of success. *)
Theorem C68_success : forall b ms mi mfr po boot sync bound fuel, wf_bus b -> (forall x, In x ms -> wf_msg (r_msg x)) ->
  NoDup (map (fun x => cm_id (r_msg x)) ms) -> In mi ms -> 0 <= mfr -> 0 <= po -> 0 <= boot -> (0 <= cm_deadline (r_msg mi))%Z ->
  (forall x, In x ms -> r_tid x = r_tid mi -> ~ in_time (r_msg x) (wctt b (map r_msg ms) (r_msg x) (Z.of_nat bound))) -> (bound < fuel)%nat ->
  exists p, ps_prob_schedulable fuel b ms mi mfr po boot sync = Some p /\ 0 <= p <= 1 /\
    p = success (fun x f => wctt b (map r_msg ms) x (Z.of_nat f)) (map r_msg (filter (fun x => r_tid x =? r_tid mi)%Z ms)) sync
          (1 - exp (- (po * boot))) (1 - exp (- (po * IZR (cm_deadline (r_msg mi))))) (mfr * IZR (cm_deadline (r_msg mi))) bound.
Proof.
  intros b ms mi mfr po boot sync bound fuel WB WM ID Hm R P B D E F.
  assert (END : forall x, In x (reps ms mi) -> ok b ms bound x = false).
  { intros x Hx. unfold reps in Hx. apply in_map_iff in Hx. destruct Hx as [y [<- Hy]]. apply filter_In in Hy. destruct Hy as [Hy Ty]. apply Z.eqb_eq in Ty.
    unfold ok. apply Z.leb_gt. specialize (E y Hy Ty). unfold in_time in E. unfold wf', cms. lia. }
  exists (the_success b ms mi mfr bound po boot sync). split; [|split].
  - apply schedulable_ok; assumption.
  - apply success_bounds; assumption.
  - reflexivity.
Qed.
Print Assumptions C68_success.

(** Two replicas and another message; with one fault no replica is in time. *)
Definition ex_rep : list rmsg := [RMsg ex_a 7; RMsg ex_b 8; RMsg ex_c 7].
Example C68_case : forall po boot mfr, 0 <= mfr -> 0 <= po -> 0 <= boot -> 
  let om := 1 - exp (- (po * boot)) in let pc := 1 - exp (- (po * 337)) in
  ps_prob_schedulable 2 ex_bus ex_rep (RMsg ex_a 7) mfr po boot true =
    Some (exp (- (mfr * 337)) * ((1 - om) * (1 - om) * ((1 - pc) * (1 - pc)) + 2 * (om * (1 - om)) * (1 - pc))).
Proof.
  intros po boot mfr R P B om pc.
  destruct (C68_success ex_bus ex_rep (RMsg ex_a 7) mfr po boot true 1 2 ex_wf_bus) as [p [E [_ V]]]; try assumption.
  - intros x [<-|[<-|[<-|[]]]]; apply ex_wf_msg; cbn; auto.
  - cbn. repeat constructor; cbn; intuition discriminate.
  - left; reflexivity.
  - cbn. lia.
  - intros x [<-|[<-|[<-|[]]]] T; [| discriminate|]; intros H; unfold in_time in H; vm_compute in H; apply H; reflexivity.
  - lia.
  - rewrite E, V. f_equal. unfold success. cbn [length map filter ex_rep r_tid r_msg Z.eqb Pos.eqb]. cbn [expect]. unfold rsum. cbn [seq fold_right].
    assert (T : forall u v, timely (fun x f => wctt ex_bus (map r_msg ex_rep) x (Z.of_nat f)) [ex_a; ex_c] [u; v] 0 = ((if u then 0 else 1) + (if v then 0 else 1))%nat)
      by (intros [|] [|]; vm_compute; reflexivity).
    change (map r_msg ex_rep) with (map r_msg ex_rep) in *. unfold ex_rep in T. cbn [map r_msg] in T. rewrite !T. cbn [plus]. rewrite poisson_0.
    change (cm_deadline ex_a) with 337%Z. fold om pc. unfold probability, majority. cbn [expect]. unfold count. cbn [length filter Bool.eqb Nat.mul Nat.add Nat.ltb Nat.leb]. ring.
Qed.

(** Asked about no timely replica, get_prob_time_periodic never returns. *)
Theorem C68_zero_diverges : forall fuel b ms mi mfr omitted, get_prob_time_periodic fuel b ms mi mfr omitted 0 = None.
Proof.
  intros fuel b ms mi mfr omitted. unfold get_prob_time_periodic. generalize 0%nat at 2. generalize 0.
  induction fuel as [|fuel IH]; intros p f; cbn [time_periodic_loop]; [reflexivity|]. apply IH.
Qed.
Print Assumptions C68_zero_diverges.

(** ** C69 *)

(** the failures in 10^9 hours that correspond to a mean number of activations up to
    a failure, one activation per period (in milliseconds) *)
Definition fit_of_mean (period : Z) (mean : R) : R := 1000000000 / (mean * IZR period / 3600000).

Lemma sum_closed p n : p <> 1 -> nsum (fun k => INR (S k) * (p ^ k * (1 - p))) n = (1 - p ^ n) / (1 - p) - INR n * p ^ n.
Proof.
  intros N. induction n as [|n IH]; [unfold nsum; cbn [seq]; rewrite rsum_nil; cbn; field; lra|]. rewrite nsum_S, IH, !S_INR. cbn [pow]. field. lra.
Qed.

(** The mean number of activations up to the first failure is 1/(1-p). *)
Theorem C69_mean : forall p, 0 < p < 1 -> mean_to_failure p (1 / (1 - p)).
Proof.
  intros p [P0 P1]. set (s := sqrt p). assert (S0 : 0 < s) by (apply sqrt_lt_R0; exact P0).
  assert (SS : s * s = p) by (apply sqrt_sqrt; lra). assert (S1 : s < 1) by nra.
  set (h := / s - 1). assert (H0 : 0 < h) by (unfold h; assert (1 < / s) by (rewrite <- Rinv_1 at 1; apply Rinv_lt_contravar; lra); lra).
  assert (HB : forall n, INR n * s ^ n <= / h).
  { intros n. pose proof (poly n h H0) as Q. replace (1 + h) with (/ s) in Q by (unfold h; lra). rewrite pow_inv in Q.
    assert (Pn : 0 < s ^ n) by (apply pow_lt; exact S0). apply Rmult_le_reg_r with h; [exact H0|]. rewrite Rinv_l by lra.
    apply Rmult_le_reg_r with (/ s ^ n); [apply Rinv_0_lt_compat; exact Pn|]. replace (INR n * s ^ n * h * / s ^ n) with (INR n * h) by (field; lra). lra. }
  assert (PS : forall n, p ^ n = s ^ n * s ^ n) by (intros n; rewrite <- SS; apply Rpow_mult_distr).
  intros eps He. set (K := / (1 - p) + / h). assert (K0 : 0 < K) by (unfold K; pose proof (Rinv_0_lt_compat (1 - p) ltac:(lra)); pose proof (Rinv_0_lt_compat h H0); lra).
  destruct (pow_lt_1_zero s ltac:(rewrite Rabs_pos_eq; lra) (eps / K) ltac:(apply Rdiv_lt_0_compat; assumption)) as [N HN].
  exists N. intros n Hn. rewrite <- nsum_f_R0, sum_closed by lra. unfold R_dist.
  specialize (HN (S n) ltac:(lia)). pose proof (pow_lt s (S n) S0) as Pn. rewrite Rabs_pos_eq in HN by lra. specialize (HB (S n)). specialize (PS (S n)).
  assert (L1 : s ^ S n <= 1) by (rewrite <- (pow1 (S n)); apply pow_incr; lra).
  set (x := s ^ S n) in *. set (q := p ^ S n) in *. set (c := INR (S n)) in *.
  replace ((1 - q) / (1 - p) - c * q - 1 / (1 - p)) with (- (q * / (1 - p) + c * q)) by (field; lra). rewrite Rabs_Ropp.
  pose proof (Rinv_0_lt_compat (1 - p) ltac:(lra)) as I. assert (C0 : 0 <= c) by apply pos_INR.
  assert (Q0 : 0 <= q) by (rewrite PS; nra). rewrite Rabs_pos_eq by (apply Rplus_le_le_0_compat; apply Rmult_le_pos; lra).
  apply Rle_lt_trans with (x * K).
  - unfold K. rewrite Rmult_plus_distr_l. apply Rplus_le_compat.
    + apply Rmult_le_compat_r; [lra|]. rewrite PS. nra.
    + rewrite PS. replace (c * (x * x)) with (x * (c * x)) by ring. apply Rmult_le_compat_l; lra.
  - apply Rmult_lt_reg_r with (/ K); [apply Rinv_0_lt_compat; exact K0|]. replace (x * K * / K) with x by (field; lra). exact HN.
Qed.
Print Assumptions C69_mean.

Lemma sinh_large u : 0 < u -> u < sinh u.
Proof.
  intros H. destruct (MVT_cor2 sinh cosh 0 u H) as [c [E [C0 C1]]]; [intros; apply derivable_pt_lim_sinh|].
  assert (Z : sinh 0 = 0) by (unfold sinh; rewrite Ropp_0; lra). rewrite Z in E.
  assert (K : 1 < cosh c).
  { unfold cosh. pose proof (exp_ineq1 c ltac:(lra)) as I. assert (M : exp c * exp (- c) = 1) by (rewrite <- exp_plus; replace (c + - c) with 0 by lra; apply exp_0).
    pose proof (exp_pos (- c)). set (x := exp c) in *. set (y := exp (- c)) in *. nra. }
  nra.
Qed.

Lemma ln_square p : 0 < p < 1 -> p * (ln p * ln p) < (1 - p) * (1 - p).
Proof.
  intros [P0 P1]. set (u := - ln p / 2). assert (L : ln p < 0) by (rewrite <- ln_1; apply ln_increasing; lra). assert (U : 0 < u) by (unfold u; lra).
  pose proof (sinh_large u U) as S. set (y := exp (- u)). assert (Y : 0 < y) by apply exp_pos.
  assert (E : y * y = p) by (unfold y; rewrite <- exp_plus; replace (- u + - u) with (ln p) by (unfold u; lra); apply exp_ln; exact P0).
  assert (M : exp u * y = 1) by (unfold y; rewrite <- exp_plus; replace (u + - u) with 0 by lra; apply exp_0).
  assert (S2 : 2 * u * y < 1 - p).
  { unfold sinh in S. fold y in S. assert (T : 2 * u * y < (exp u - y) * y) by (apply Rmult_lt_compat_r; lra). nra. }
  replace (ln p) with (- (2 * u)) by (unfold u; lra). rewrite <- E at 1. assert (0 < 2 * u * y) by (apply Rmult_lt_0_compat; lra).
  replace (y * y * (- (2 * u) * - (2 * u))) with ((2 * u * y) * (2 * u * y)) by ring. apply Rmult_le_0_lt_compat; lra.
Qed.
Lemma ln_below p : 0 < p < 1 -> (1 - p) * (1 - p) <= ln p * ln p.
Proof.
  intros [P0 P1]. assert (L : ln p <= p - 1).
  { pose proof (exp_ineq1_le (ln p)) as H. rewrite exp_ln in H by exact P0. lra. }
  nra.
Qed.

Lemma fit_eq period p : 0 < p < 1 -> (0 < period)%Z -> get_fit_rate period p = 1000000000 * 3600000 / IZR period * (p * (ln p * ln p) / (1 - p)).
Proof.
  intros [P0 P1] Q. apply IZR_lt in Q. unfold get_fit_rate. destruct (Req_EM_T p 1) as [X|_]; [lra|]. cbv zeta.
  assert (L : ln p < 0) by (rewrite <- ln_1; apply ln_increasing; lra). field. repeat split; lra.
Qed.
Lemma mean_eq period p : 0 < p < 1 -> (0 < period)%Z -> fit_of_mean period (1 / (1 - p)) = 1000000000 * 3600000 / IZR period * (1 - p).
Proof. intros [P0 P1] Q. apply IZR_lt in Q. unfold fit_of_mean. field. split; lra. Qed.

(** The reported rate is within the factor p of the rate that belongs to the mean,
    but always too small. *)
Theorem C69_accuracy : forall period p mtf, 0 < p < 1 -> (0 < period)%Z -> mean_to_failure p mtf ->
  p * fit_of_mean period mtf <= get_fit_rate period p < fit_of_mean period mtf.
Proof.
  intros period p mtf Hp Q M. assert (E : mtf = 1 / (1 - p)) by (apply (uniqueness_sum _ _ _ M), C69_mean, Hp). subst mtf.
  rewrite fit_eq, mean_eq by assumption. pose proof (ln_square p Hp) as A. pose proof (ln_below p Hp) as B. destruct Hp as [P0 P1].
  set (K := 1000000000 * 3600000 / IZR period). assert (K0 : 0 < K) by (unfold K; apply IZR_lt in Q; apply Rdiv_lt_0_compat; lra).
  set (z := ln p * ln p) in *. pose proof (Rinv_0_lt_compat (1 - p) ltac:(lra)) as I.
  assert (X : p * (1 - p) <= p * z / (1 - p)).
  { apply Rmult_le_reg_r with (1 - p); [lra|]. replace (p * z / (1 - p) * (1 - p)) with (p * z) by (field; lra). nra. }
  assert (Y : p * z / (1 - p) < 1 - p).
  { apply Rmult_lt_reg_r with (1 - p); [lra|]. replace (p * z / (1 - p) * (1 - p)) with (p * z) by (field; lra). exact A. }
  split; [|apply Rmult_lt_compat_l; lra]. replace (p * (K * (1 - p))) with (K * (p * (1 - p))) by ring. apply Rmult_le_compat_l; lra.
Qed.
Print Assumptions C69_accuracy.

Example C69_case : mean_to_failure (1 / 2) 2 /\ (1 / 2) * fit_of_mean 10 2 = 90000000000000 /\ get_fit_rate 10 1 = 0.
Proof.
  split; [|split].
  - replace 2 with (1 / (1 - 1 / 2)) at 2 by lra. apply C69_mean. lra.
  - unfold fit_of_mean. lra.
  - unfold get_fit_rate. destruct (Req_EM_T 1 1); [reflexivity|lra].
Qed.

(** A lower probability of success can give a lower rate of failures. *)
Theorem C69_monotone_refuted : exists period p q, (0 < period)%Z /\ 0 < p < q /\ q < 1 /\ get_fit_rate period p < get_fit_rate period q.
Proof.
  exists 1%Z, (exp (-8)), (exp (-1)). split; [lia|].
  assert (P : 0 < exp (-8)) by apply exp_pos. assert (PQ : exp (-8) < exp (-1)) by (apply exp_increasing; lra). assert (Q1 : exp (-1) < 1) by (rewrite <- exp_0; apply exp_increasing; lra).
  split; [lra|]. split; [exact Q1|]. rewrite !fit_eq by (try lia; lra). apply Rmult_lt_compat_l; [lra|]. rewrite !ln_exp.
  set (x := exp (-1)) in *. assert (X : exp (-8) = x ^ 8).
  { unfold x. cbn [pow]. rewrite Rmult_1_r, <- !exp_plus. f_equal. lra. }
  rewrite X in *. assert (X2 : x <= / 2).
  { pose proof (exp_ineq1_le 1) as I. assert (Y : x * exp 1 = 1) by (unfold x; rewrite <- exp_plus; replace (-1 + 1) with 0 by lra; apply exp_0). assert (0 < x) by apply exp_pos. nra. }
  assert (X0 : 0 < x) by apply exp_pos.
  assert (B : x ^ 7 <= / 128). { apply Rle_trans with ((/ 2) ^ 7); [apply pow_incr; lra|lra]. }
  assert (B0 : 0 < x ^ 7) by (apply pow_lt; exact X0). assert (E8 : x ^ 8 = x * x ^ 7) by (cbn; ring). rewrite E8. set (t := x ^ 7) in *.
  apply Rle_lt_trans with (x / 2 / (1 - x * t)).
  - unfold Rdiv. apply Rmult_le_compat_r; [left; apply Rinv_0_lt_compat; nra|]. nra.
  - replace (x * (-1 * -1) / (1 - x)) with (x / (1 - x)) by (field; lra). unfold Rdiv. rewrite Rmult_assoc. apply Rmult_lt_compat_l; [exact X0|]. rewrite <- Rinv_mult.
    apply Rinv_lt_contravar; nra.
Qed.
Print Assumptions C69_monotone_refuted.
