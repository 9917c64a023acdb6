(** The CAN analysis: least fixed point, termination, safety. *)
From Coq Require Import ZArith List Bool Lia Arith.
From Verif Require Import Base ModelCAN SpecCAN.
Import ListNotations.
Open Scope Z_scope.

Lemma zmax_nonneg l : 0 <= zmax l.
Proof. induction l; cbn [zmax fold_right]; [lia|]. unfold zmax in IHl. lia. Qed.

Lemma zmax_in l x : In x l -> x <= zmax l.
Proof. induction l as [|a l IH]; [intros []|]. cbn [zmax fold_right]. intros [->|H]; [lia|]. specialize (IH H). unfold zmax in IH. lia. Qed.

Lemma zmax_incl l l' : (forall x, In x l -> In x l') -> zmax l <= zmax l'.
Proof.
  induction l as [|a l IH]; intros H; [apply zmax_nonneg|]. cbn [zmax fold_right]. specialize (IH (fun x Hx => H x (or_intror Hx))). pose proof (zmax_in l' a (H a (or_introl eq_refl))). unfold zmax in IH at 1. lia.
Qed.

Lemma fold_max (f : cmsg -> Z) (p : cmsg -> bool) l : forall a, 0 <= a -> fold_left (fun d k => if p k then Z.max d (f k) else d) l a = Z.max a (zmax (map f (filter p l))).
Proof.
  induction l as [|k l IH]; intros a Ha; cbn [fold_left filter map].
  - cbn. lia.
  - destruct (p k); cbn [map zmax fold_right]; rewrite IH by lia; unfold zmax; lia.
Qed.

Lemma fold_sum (f : cmsg -> Z) (p : cmsg -> bool) l : forall a, fold_left (fun d k => if p k then d + f k else d) l a = a + zsum (map f (filter p l)).
Proof. induction l as [|k l IH]; intros a; cbn [fold_left filter map]; [cbn; lia|]. destruct (p k); cbn [map zsum]; rewrite IH; lia. Qed.

Definition rhs (b : canbus) (ms : list cmsg) (mi : cmsg) (faults w : Z) : Z :=
  blocking_delay b ms mi + transfer_delay b mi + inter_delay b ms mi w + faults * retran_delay b ms mi.

Lemma rhs_recurrence b ms m f w : rhs b ms m f w = recurrence b ms m f w.
Proof.
  unfold rhs, recurrence, blocking_delay, retran_delay, inter_delay.
  rewrite (fold_max (transfer_delay b) (fun k => cm_id m <? cm_id k)), (fold_max (transfer_delay b) (fun k => cm_id k <=? cm_id m)) by lia.
  rewrite (fold_sum (fun k => cdiv (w - transfer_delay b m + cm_jitter k + b_tau b) (cm_period k) * (transfer_delay b k + b_ifs b)) (fun k => cm_id k <? cm_id m)).
  fold (lower ms m) (higher_or_equal ms m) (higher ms m). pose proof (zmax_nonneg (map (transfer_delay b) (lower ms m))). pose proof (zmax_nonneg (map (transfer_delay b) (higher_or_equal ms m))).
  rewrite !Z.max_r by assumption. lia.
Qed.

Lemma frame_pos m : 0 <= cm_length m -> 44 <= max_framesize m.
Proof. intros H. unfold max_framesize. pose proof (Z.div_pos (33 + 8 * cm_length m) 4 ltac:(lia) ltac:(lia)). lia. Qed.

Lemma transfer_pos b m : wf_bus b -> wf_msg m -> 44 <= transfer_delay b m.
Proof. intros [H1 _] [H2 _]. unfold transfer_delay. pose proof (frame_pos m H2). nia. Qed.

Section Loop.
Variables (b : canbus) (ms : list cmsg) (mi : cmsg) (faults : Z).
Variable WB : wf_bus b.
Variable WM : forall m, In m ms -> wf_msg m.
Variable WF : 0 <= faults.
Let C := transfer_delay b mi.
Let F := recurrence b ms mi faults.

Lemma hp_wf k : In k (higher ms mi) -> wf_msg k.
Proof. intros H. apply filter_In in H. apply WM, H. Qed.

Lemma F_mono v w : v <= w -> F v <= F w.
Proof.
  intros H. unfold F, recurrence. assert (zsum (map (fun k => cdiv (v - transfer_delay b mi + cm_jitter k + b_tau b) (cm_period k) * (transfer_delay b k + b_ifs b)) (higher ms mi))
    <= zsum (map (fun k => cdiv (w - transfer_delay b mi + cm_jitter k + b_tau b) (cm_period k) * (transfer_delay b k + b_ifs b)) (higher ms mi))); [|lia].
  apply zsum_map_le. intros k Hk. pose proof (hp_wf k Hk) as W. pose proof (transfer_pos b k WB W). destruct W as [_ [P _]]. destruct WB as [_ [I _]].
  apply Z.mul_le_mono_nonneg_r; [lia|]. apply cdiv_le; lia.
Qed.

Lemma F_start : C <= F C.
Proof.
  unfold F, recurrence. pose proof (zmax_nonneg (map (transfer_delay b) (lower ms mi))). pose proof (zmax_nonneg (map (transfer_delay b) (higher_or_equal ms mi))). destruct WB as [T [I E]].
  assert (0 <= zsum (map (fun k => cdiv (C - transfer_delay b mi + cm_jitter k + b_tau b) (cm_period k) * (transfer_delay b k + b_ifs b)) (higher ms mi))).
  { apply zsum_nonneg. intros x Hx. apply in_map_iff in Hx. destruct Hx as [k [<- Hk]]. pose proof (hp_wf k Hk) as W. pose proof (transfer_pos b k WB W). destruct W as [_ [P J]].
    apply Z.mul_nonneg_nonneg; [|lia]. apply cdiv_nonneg; [lia|]. unfold C. lia. }
  assert (0 <= faults * (zmax (map (transfer_delay b) (higher_or_equal ms mi)) + b_err b)) by (apply Z.mul_nonneg_nonneg; lia). unfold C in *. lia.
Qed.

(** The loop returns a value below every later solution; if it meets the deadline it
    is a solution. *)
Lemma loop_ok fuel : forall w, C <= w <= F w -> (forall x, C <= x -> F x <= x -> w <= x) ->
  Z.of_nat fuel > cm_deadline mi - cm_jitter mi - w + 1 -> (0 < fuel)%nat ->
  exists r, wctt_loop fuel b ms mi faults w = Some r /\ w <= r <= F r /\ (forall x, C <= x -> F x <= x -> r <= x) /\ (r + cm_jitter mi <= cm_deadline mi -> F r = r).
Proof.
  induction fuel as [|fuel IH]; intros w [Hw HF] HL HN H0; [lia|]. cbn [wctt_loop].
  change (blocking_delay b ms mi + transfer_delay b mi + inter_delay b ms mi w + faults * retran_delay b ms mi) with (rhs b ms mi faults w). rewrite rhs_recurrence. fold (F w).
  assert (NL : forall x, C <= x -> F x <= x -> F w <= x) by (intros x Hx Hp; etransitivity; [apply F_mono, (HL x Hx Hp)|exact Hp]).
  destruct (Z.eqb_spec (F w) w) as [E|NE].
  - exists (F w). split; [reflexivity|]. rewrite E. split; [rewrite E; lia|]. split; [exact HL|]. intros _. exact E.
  - destruct (Z.ltb_spec (cm_deadline mi) (F w + cm_jitter mi)) as [G|G].
    + exists (F w). split; [reflexivity|]. split; [split; [lia|apply F_mono; lia]|]. split; [exact NL|]. lia.
    + destruct (IH (F w)) as [r [R1 [R2 R3]]].
      * split; [lia|apply F_mono; lia].
      * exact NL.
      * lia.
      * lia.
      * exists r. split; [exact R1|]. split; [lia|exact R3].
Qed.

Lemma wctt_ok fuel : (wctt_fuel b mi <= fuel)%nat -> get_wctt fuel b ms mi faults = Some (wctt b ms mi faults) /\
  C <= wctt b ms mi faults <= F (wctt b ms mi faults) /\ (forall x, C <= x -> F x <= x -> wctt b ms mi faults <= x) /\
  (wctt b ms mi faults + cm_jitter mi <= cm_deadline mi -> F (wctt b ms mi faults) = wctt b ms mi faults).
Proof.
  assert (G : forall f, (wctt_fuel b mi <= f)%nat -> exists r, get_wctt f b ms mi faults = Some r /\ C <= r <= F r /\ (forall x, C <= x -> F x <= x -> r <= x) /\ (r + cm_jitter mi <= cm_deadline mi -> F r = r)).
  { intros f Hf. unfold get_wctt. apply loop_ok; unfold wctt_fuel in Hf; fold C in Hf |- *.
    - split; [lia|apply F_start].
    - intros x Hx _. exact Hx.
    - lia.
    - lia. }
  assert (FU : forall f w r, wctt_loop f b ms mi faults w = Some r -> wctt_loop (S f) b ms mi faults w = Some r).
  { induction f as [|f IH]; intros w r H; [discriminate|]. cbn [wctt_loop] in H |- *. destruct (_ =? w); [exact H|]. destruct (cm_deadline mi <? _); [exact H|]. apply IH in H. cbn [wctt_loop] in H. exact H. }
  intros Hf. destruct (G (wctt_fuel b mi) (le_n _)) as [r [R1 R2]]. assert (EW : wctt b ms mi faults = r) by (unfold wctt; rewrite R1; reflexivity). rewrite EW. split; [|exact R2].
  clear G R2 EW. unfold get_wctt in *. induction Hf as [|f Hf IH]; [exact R1|]. apply FU. exact IH.
Qed.
End Loop.

Lemma recurrence_faults b ms m f f' w : wf_bus b -> f <= f' -> recurrence b ms m f w <= recurrence b ms m f' w.
Proof. intros [_ [_ E]] H. unfold recurrence. pose proof (zmax_nonneg (map (transfer_delay b) (higher_or_equal ms m))). nia. Qed.

Lemma wctt_monotone b ms m f f' : wf_bus b -> (forall x, In x ms -> wf_msg x) -> 0 <= f <= f' ->
  wctt b ms m f' + cm_jitter m <= cm_deadline m -> wctt b ms m f <= wctt b ms m f'.
Proof.
  intros WB WM Hf HA. destruct (wctt_ok b ms m f WB WM ltac:(lia) _ (le_n _)) as [_ [_ [L _]]]. destruct (wctt_ok b ms m f' WB WM ltac:(lia) _ (le_n _)) as [_ [S [_ E]]].
  apply L; [lia|]. etransitivity; [apply (recurrence_faults b ms m f f' _ WB); lia|]. rewrite (E HA). lia.
Qed.

Lemma br_schedulable_iff b ms m n : wf_bus b -> (forall x, In x ms -> wf_msg x) ->
  (br_is_schedulable b ms m n = true <-> wctt b ms m (Z.of_nat n) + cm_jitter m <= cm_deadline m).
Proof.
  intros WB WM. unfold br_is_schedulable. rewrite forallb_forall. split.
  - intros H. apply Z.leb_le. apply H. apply in_seq. lia.
  - intros H i Hi. apply in_seq in Hi. apply Z.leb_le. pose proof (wctt_monotone b ms m (Z.of_nat i) (Z.of_nat n) WB WM ltac:(lia) H). lia.
Qed.

(** * The cache *)
Definition cached (b : canbus) (ms : list cmsg) (m : cmsg) (vec : list Z) : Prop := forall i, (i < length vec)%nat -> nth i vec 0 = wctt b ms m (Z.of_nat i).

Lemma wctt_fast_ok b ms m n vec : cached b ms m vec -> snd (wctt_fast b ms m n vec) = wctt b ms m (Z.of_nat n) /\ cached b ms m (fst (wctt_fast b ms m n vec)).
Proof.
  intros H. unfold wctt_fast. destruct (Nat.ltb_spec n (length vec)) as [L|L]; cbn [fst snd]; [split; [apply H; exact L|exact H]|].
  set (v2 := vec ++ map (fun i => wctt b ms m (Z.of_nat i)) (seq (length vec) (S n - length vec))).
  assert (G : cached b ms m v2).
  { intros i Hi. unfold v2 in *. rewrite app_length, map_length, seq_length in Hi. destruct (Nat.lt_ge_cases i (length vec)) as [A|A].
    - rewrite app_nth1 by exact A. apply H. exact A.
    - rewrite app_nth2 by exact A. set (f := fun i => wctt b ms m (Z.of_nat i)). rewrite (nth_indep _ 0 (f O)) by (rewrite map_length, seq_length; lia). rewrite map_nth, seq_nth by lia. unfold f. f_equal. lia. }
  split; [|exact G]. apply G. unfold v2. rewrite app_length, map_length, seq_length. lia.
Qed.

(** * Safety for the first instance of a busy period *)

Lemma fop_at_most_one {A} (R : A -> A -> Prop) (p : A -> bool) l : ForallOrdPairs R l -> (forall x y, R x y -> p x = true -> p y = true -> False) -> zsum (map (fun x => b2z (p x)) l) <= 1.
Proof.
  intros H HR. induction H as [|x l HF HP IH]; cbn [map zsum]; [lia|]. destruct (p x) eqn:E; cbn [b2z]; [|lia].
  rewrite (zsum_map_ext _ _ (fun _ => 0)); [rewrite zsum_map_const; lia|]. intros y Hy. destruct (p y) eqn:E2; [|reflexivity]. exfalso. rewrite Forall_forall in HF. apply (HR x y (HF y Hy) E E2).
Qed.

Lemma fop_in {A} (R : A -> A -> Prop) l x y : ForallOrdPairs R l -> In x l -> In y l -> x = y \/ R x y \/ R y x.
Proof.
  intros H. induction H as [|a l HF HP IH]; [intros []|]. rewrite Forall_forall in HF. intros [->|Hx] [->|Hy]; auto.
Qed.

Lemma zsum_filter_len {A} (p : A -> bool) l : zsum (map (fun x => b2z (p x)) l) = Z.of_nat (length (filter p l)).
Proof. induction l as [|x l IH]; [reflexivity|]. cbn [map zsum filter]. rewrite IH. destruct (p x); cbn [b2z length]; lia. Qed.

(** arrivals at least [T] apart in a window *)
Lemma window_count (a : nat -> Z) T lo hi ks : 1 <= T -> (forall k, a k + T <= a (S k)) -> NoDup ks -> (forall k, In k ks -> lo <= a k <= hi) -> ks <> [] ->
  T * (Z.of_nat (length ks) - 1) <= hi - lo.
Proof.
  intros HT HA HN HI NE. assert (MON : forall k d, a k + T * Z.of_nat d <= a (k + d)%nat).
  { intros k d. induction d as [|d IH]; [rewrite Nat.add_0_r; lia|]. rewrite Nat.add_succ_r. pose proof (HA (k + d)%nat). lia. }
  assert (EX : exists k0 k1, In k0 ks /\ In k1 ks /\ forall k, In k ks -> (k0 <= k <= k1)%nat).
  { clear - NE. induction ks as [|x r IH]; [congruence|]. destruct r as [|y r].
    - exists x, x. split; [left; reflexivity|]. split; [left; reflexivity|]. intros k [<-|[]]. lia.
    - destruct IH as [k0 [k1 [H0 [H1 HK]]]]; [discriminate|]. exists (Nat.min x k0), (Nat.max x k1). split; [|split].
      + destruct (Nat.min_spec x k0) as [[_ ->]|[_ ->]]; [left; reflexivity|right; exact H0].
      + destruct (Nat.max_spec x k1) as [[_ ->]|[_ ->]]; [right; exact H1|left; reflexivity].
      + intros k [<-|Hk]; [lia|]. specialize (HK k Hk). lia. }
  destruct EX as [k0 [k1 [H0 [H1 HK]]]]. assert (LEN : (length ks <= S (k1 - k0))%nat).
  { rewrite <- (seq_length (S (k1 - k0)) k0). apply NoDup_incl_length; [exact HN|]. intros k Hk. apply in_seq. specialize (HK k Hk). lia. }
  pose proof (HK k0 H0). pose proof (MON k0 (k1 - k0)%nat) as M. replace (k0 + (k1 - k0))%nat with k1 in M by lia. pose proof (HI k0 H0). pose proof (HI k1 H1). nia.
Qed.

(** time covered by an interval *)
Lemma cover_le t0 a b n : sumf (fun u => b2z ((a <=? t0 + Z.of_nat u) && (t0 + Z.of_nat u <? b))) n <= Z.max 0 (b - Z.max a t0).
Proof.
  assert (G : forall n, sumf (fun u => b2z ((a <=? t0 + Z.of_nat u) && (t0 + Z.of_nat u <? b))) n <= Z.max 0 (Z.min b (t0 + Z.of_nat n) - Z.max a t0)).
  { induction n0 as [|k IH]; [cbn [sumf]; lia|]. cbn [sumf]. destruct (Z.leb_spec a (t0 + Z.of_nat k)), (Z.ltb_spec (t0 + Z.of_nat k) b); cbn [andb b2z]; lia. }
  specialize (G n). lia.
Qed.

Lemma transmitted_dec evs i k t : {transmitted evs i k t} + {~ transmitted evs i k t}.
Proof.
  destruct (existsb (fun e => Nat.eqb (ev_msg e) i && Nat.eqb (ev_inst e) k && ev_ok e && (ev_end e <=? t)) evs) eqn:E.
  - left. apply existsb_exists in E. destruct E as [e [H1 H2]]. exists e. apply andb_true_iff in H2. destruct H2 as [H2 H5]. apply andb_true_iff in H2. destruct H2 as [H2 H4]. apply andb_true_iff in H2. destruct H2 as [H2 H3].
    apply Nat.eqb_eq in H2, H3. apply Z.leb_le in H5. auto.
  - right. intros [e [H1 [H2 [H3 [H4 H5]]]]]. assert (existsb (fun e => Nat.eqb (ev_msg e) i && Nat.eqb (ev_inst e) k && ev_ok e && (ev_end e <=? t)) evs = true); [|congruence].
    apply existsb_exists. exists e. split; [exact H1|]. apply (proj2 (Nat.eqb_eq _ _)) in H2, H3. apply Z.leb_le in H5. rewrite H2, H3, H4, H5. reflexivity.
Qed.

Section Safe.
Variables (b : canbus) (ms : list cmsg) (arrival queued : nat -> nat -> Z) (horizon : Z) (evs : list event).
Variable WB : wf_bus b.
Variable WM : forall m, In m ms -> wf_msg m.
Variable IDS : NoDup (map cm_id ms).
Variable SP : sporadic_msgs ms arrival queued.
Variable EX : can_execution b ms queued horizon evs.
Variables (i k : nat) (m : cmsg) (t0 faults : Z).
Variable Hi : nth_error ms i = Some m.
Variable FIRST : first_in_busy_period ms queued evs i k m t0.
Variable WF : 0 <= faults.
Let w := wctt b ms m faults.
Variable ACC : w + cm_jitter m <= cm_deadline m.
Variable HOR : t0 + w <= horizon.
Variable FLT : Z.of_nat (length (faults_in b evs t0 (t0 + w))) <= faults.
Variable LATE : ~ transmitted evs i k (t0 + w).

Let C := transfer_delay b m.
Let y := w - C.

Lemma w_fix : recurrence b ms m faults w = w /\ C <= w.
Proof. destruct (wctt_ok b ms m faults WB WM WF _ (le_n _)) as [_ [W1 [_ W2]]]. fold w C in W1, W2. split; [apply W2; exact ACC|lia]. Qed.

Lemma y_nonneg : 0 <= y.
Proof. pose proof w_fix. unfold y. lia. Qed.

Lemma C_pos : 44 <= C.
Proof. apply transfer_pos; [exact WB|]. apply WM. apply nth_error_In in Hi. exact Hi. Qed.

Lemma trans_mono x z t t' : t <= t' -> transmitted evs x z t -> transmitted evs x z t'.
Proof. intros H [e [E1 [E2 [E3 [E4 E5]]]]]. exists e. repeat split; auto. lia. Qed.

(** some message of this or a higher priority is waiting *)
Lemma hep_waiting t : t0 <= t <= t0 + w -> exists i' k' m', nth_error ms i' = Some m' /\ cm_id m' <= cm_id m /\ waiting queued evs i' k' t.
Proof.
  intros Ht. destruct FIRST as [F1 [F2 [F3 F4]]]. destruct (Z.lt_ge_cases t (queued i k)) as [L|L]; [apply F3; lia|].
  exists i, k, m. split; [exact Hi|]. split; [lia|]. split; [exact L|]. intros TR. apply LATE. apply (trans_mono i k t); [lia|exact TR].
Qed.

Lemma queued_mono x mx c d : nth_error ms x = Some mx -> queued x c <= queued x (c + d)%nat.
Proof. intros H. induction d as [|d IH]; [rewrite Nat.add_0_r; lia|]. rewrite Nat.add_succ_r. pose proof (SP x mx H (c + d)%nat). lia. Qed.

Lemma ev_m e : In e evs -> exists me, nth_error ms (ev_msg e) = Some me /\ wf_msg me.
Proof.
  intros He. pose proof (can_msg _ _ _ _ _ EX e He) as L. destruct (nth_error ms (ev_msg e)) as [me|] eqn:E; [|apply nth_error_None in E; lia].
  exists me. split; [reflexivity|]. apply WM. apply nth_error_In in E. exact E.
Qed.

(** an ok event is the only one of its instance *)
Lemma ok_unique e f : In e evs -> In f evs -> ev_msg e = ev_msg f -> ev_inst e = ev_inst f -> ev_ok e = true -> ev_ok f = true -> e = f.
Proof. intros He Hf E1 E2 O1 O2. destruct (fop_in _ _ e f (can_once _ _ _ _ _ EX) He Hf) as [E|[E|E]]; [exact E| |]; exfalso; apply E; congruence. Qed.

(** an instance that is sent successfully from [t0] on was not queued before *)
Lemma ok_not_before e me : In e evs -> ev_ok e = true -> nth_error ms (ev_msg e) = Some me -> cm_id me <= cm_id m -> t0 <= ev_start e -> t0 <= queued (ev_msg e) (ev_inst e).
Proof.
  intros He Ho Hm HI HS. destruct (Z.lt_ge_cases (queued (ev_msg e) (ev_inst e)) t0) as [L|L]; [|exact L]. exfalso.
  destruct FIRST as [_ [F2 _]]. destruct (F2 _ _ _ Hm HI L) as [f [Hf [E1 [E2 [E3 E4]]]]]. destruct (can_priority _ _ _ _ _ EX e me He Hm) as [[_ W] _]. apply W. exists f. repeat split; auto. lia.
Qed.

Definition early (e : event) : bool := (ev_start e <? t0) && (t0 <? ev_free b e).
Definition faulty (e : event) : bool := negb (ev_ok e) && (ev_start e <? t0 + w) && (t0 <? ev_free b e).
Definition sent (j : nat) (e : event) : bool := Nat.eqb (ev_msg e) j && ev_ok e && (t0 <=? ev_start e) && (ev_start e <=? t0 + y).
Let n := Z.to_nat (y + 1).
Definition ovl (e : event) : Z := sumf (fun u => b2z ((ev_start e <=? t0 + Z.of_nat u) && (t0 + Z.of_nat u <? ev_free b e))) n.

Let B1 := zmax (map (transfer_delay b) (lower ms m)) + b_ifs b.
Let E1 := zmax (map (transfer_delay b) (higher_or_equal ms m)) + b_err b.
Definition cj (j : nat) : Z := match nth_error ms j with Some mj => b2z (cm_id mj <? cm_id m) * (transfer_delay b mj + b_ifs b) | None => 0 end.

Lemma cj_nonneg j : 0 <= cj j.
Proof.
  unfold cj. destruct (nth_error ms j) as [mj|] eqn:E; [|lia]. pose proof (transfer_pos b mj WB (WM mj (nth_error_In _ _ E))). destruct WB as [_ [I _]]. destruct (cm_id mj <? cm_id m); cbn [b2z]; lia.
Qed.

Lemma ids_inj x mx z mz : nth_error ms x = Some mx -> nth_error ms z = Some mz -> cm_id mx = cm_id mz -> x = z.
Proof.
  intros Hx Hz E. apply (proj1 (NoDup_nth_error (map cm_id ms)) IDS); [rewrite map_length; apply nth_error_Some; congruence|]. rewrite !nth_error_map, Hx, Hz. cbn. congruence.
Qed.

(** events that start in the window are of the same or a higher priority *)
Lemma window_hep e me : In e evs -> nth_error ms (ev_msg e) = Some me -> t0 <= ev_start e <= t0 + y -> cm_id me <= cm_id m.
Proof.
  intros He Hm HS. pose proof C_pos. destruct (hep_waiting (ev_start e)) as [x [z [mx [H1 [H2 H3]]]]]; [unfold y in HS; lia|].
  destruct (can_priority _ _ _ _ _ EX e me He Hm) as [_ P]. destruct (P x z mx H1 H3) as [P1 _]. lia.
Qed.

(** ... and successful ones of a higher priority *)
Lemma window_ok e me : In e evs -> ev_ok e = true -> nth_error ms (ev_msg e) = Some me -> t0 <= ev_start e <= t0 + y -> cm_id me < cm_id m.
Proof.
  intros He Ho Hm HS. pose proof (window_hep e me He Hm HS) as LE. destruct (Z.eq_dec (cm_id me) (cm_id m)) as [Q|Q]; [|lia]. exfalso.
  pose proof (ids_inj _ _ _ _ Hm Hi Q) as EI. assert (me = m) by congruence. subst me.
  pose proof (ok_not_before e m He Ho Hm LE (proj1 HS)) as QB. destruct (can_len _ _ _ _ _ EX e m He Hm) as [L1 L2]. fold C in L2.
  destruct FIRST as [F1 [F2 [F3 F4]]]. rewrite EI in QB. destruct (can_priority _ _ _ _ _ EX e m He Hm) as [[QS _] P]. rewrite EI in QS.
  destruct (Nat.lt_trichotomy (ev_inst e) k) as [LT|[EQ|GT]].
  - specialize (F4 _ LT). lia.
  - apply LATE. exists e. repeat split; auto. unfold y in HS. lia.
  - assert (WT : waiting queued evs i k (ev_start e)).
    { split.
      - replace (ev_inst e) with (k + (ev_inst e - k))%nat in QS by lia. pose proof (queued_mono i m k (ev_inst e - k) Hi). lia.
      - intros TR. apply LATE. apply (trans_mono i k (ev_start e)); [unfold y in HS; pose proof C_pos; lia|exact TR]. }
    destruct (P i k m Hi WT) as [_ P2]. specialize (P2 (eq_sym EI)). lia.
Qed.

Lemma ovl_le e : In e evs -> ovl e <= b2z (early e) * B1 + b2z (faulty e) * E1 + zsum (map (fun j => b2z (sent j e) * cj j) (seq 0 (length ms))).
Proof.
  intros He. destruct (ev_m e He) as [me [Hm Wm]]. destruct (can_len _ _ _ _ _ EX e me He Hm) as [L1 L2]. pose proof (transfer_pos b me WB Wm) as TP. pose proof WB as [TB [IB EB]].
  assert (BN : 0 <= B1) by (unfold B1; pose proof (zmax_nonneg (map (transfer_delay b) (lower ms m))); lia).
  assert (EN : 0 <= E1) by (unfold E1; pose proof (zmax_nonneg (map (transfer_delay b) (higher_or_equal ms m))); lia).
  assert (SN : 0 <= zsum (map (fun j => b2z (sent j e) * cj j) (seq 0 (length ms)))).
  { apply zsum_nonneg. intros x Hx. apply in_map_iff in Hx. destruct Hx as [j [<- _]]. pose proof (cj_nonneg j). pose proof (b2z_range (sent j e)). nia. }
  pose proof (cover_le t0 (ev_start e) (ev_free b e) n) as CV. fold (ovl e) in CV.
  destruct (Z.le_gt_cases (ev_free b e) t0) as [A|A].
  { assert (ovl e <= 0) by lia. pose proof (b2z_range (early e)). pose proof (b2z_range (faulty e)). nia. }
  assert (IN : In me ms) by (apply nth_error_In in Hm; exact Hm).
  assert (HC : cm_id me <= cm_id m -> transfer_delay b me <= E1 - b_err b).
  { intros HH. unfold E1. enough (transfer_delay b me <= zmax (map (transfer_delay b) (higher_or_equal ms m))) by lia. apply zmax_in, in_map. apply filter_In. split; [exact IN|apply Z.leb_le; exact HH]. }
  assert (LC : cm_id m < cm_id me -> transfer_delay b me <= B1 - b_ifs b).
  { intros HH. unfold B1. enough (transfer_delay b me <= zmax (map (transfer_delay b) (lower ms m))) by lia. apply zmax_in, in_map. apply filter_In. split; [exact IN|apply Z.ltb_lt; exact HH]. }
  destruct (Z.lt_ge_cases (ev_start e) t0) as [S|S].
  - assert (EE : early e = true) by (unfold early; apply andb_true_iff; split; apply Z.ltb_lt; lia). rewrite EE. cbn [b2z].
    destruct (ev_ok e) eqn:O.
    + assert (ovl e <= B1); [|pose proof (b2z_range (faulty e)); nia]. unfold ev_free in CV. rewrite O in CV. destruct (Z.le_gt_cases (cm_id me) (cm_id m)) as [HH|HH].
      * destruct (can_priority _ _ _ _ _ EX e me He Hm) as [[QS NW] _]. destruct FIRST as [_ [F2 _]]. destruct (F2 _ _ _ Hm HH (Z.le_lt_trans _ _ _ QS S)) as [f [Hf [E2 [E3 [E4 E5]]]]].
        assert (f = e) by (apply ok_unique; auto). subst f. unfold B1. pose proof (zmax_nonneg (map (transfer_delay b) (lower ms m))). lia.
      * specialize (LC HH). lia.
    + assert (FF : faulty e = true).
      { unfold faulty. rewrite O. cbn. apply andb_true_iff. split; apply Z.ltb_lt; [|lia]. pose proof w_fix. pose proof C_pos. lia. }
      rewrite FF. cbn [b2z]. unfold ev_free in CV. rewrite O in CV. destruct (Z.le_gt_cases (cm_id me) (cm_id m)) as [HH|HH]; [specialize (HC HH); lia|specialize (LC HH)]. assert (b_err b <= E1) by (unfold E1; pose proof (zmax_nonneg (map (transfer_delay b) (higher_or_equal ms m))); lia). lia.
  - destruct (Z.le_gt_cases (ev_start e) (t0 + y)) as [S2|S2].
    + pose proof (window_hep e me He Hm (conj S S2)) as HH. destruct (ev_ok e) eqn:O.
      * pose proof (window_ok e me He O Hm (conj S S2)) as HP. assert (JL : In (ev_msg e) (seq 0 (length ms))) by (apply in_seq; apply nth_error_Some_lt in Hm; lia).
        assert (SJ : b2z (sent (ev_msg e) e) * cj (ev_msg e) = transfer_delay b me + b_ifs b).
        { unfold sent, cj. rewrite Nat.eqb_refl, O, Hm. destruct (Z.leb_spec t0 (ev_start e)); [|lia]. destruct (Z.leb_spec (ev_start e) (t0 + y)); [|lia]. destruct (Z.ltb_spec (cm_id me) (cm_id m)); [|lia]. cbn [andb b2z]. lia. }
        pose proof (zsum_in_le _ (fun j => b2z (sent j e) * cj j) (seq 0 (length ms)) (ev_msg e)) as ZI. cbv beta in ZI. rewrite SJ in ZI.
        assert (ZN : forall j, In j (seq 0 (length ms)) -> 0 <= b2z (sent j e) * cj j) by (intros j _; pose proof (cj_nonneg j); pose proof (b2z_range (sent j e)); nia).
        specialize (ZI ZN JL). unfold ev_free in CV. rewrite O in CV. pose proof (b2z_range (early e)). pose proof (b2z_range (faulty e)). nia.
      * assert (FF : faulty e = true).
        { unfold faulty. rewrite O. cbn. apply andb_true_iff. split; apply Z.ltb_lt; [|lia]. pose proof C_pos. unfold y in S2. lia. }
        rewrite FF. cbn [b2z]. unfold ev_free in CV. rewrite O in CV. specialize (HC HH). pose proof (b2z_range (early e)). nia.
    + assert (OZ : ovl e = 0).
      { unfold ovl. apply sumf_zero. intros u Hu. unfold n in Hu. destruct (Z.leb_spec (ev_start e) (t0 + Z.of_nat u)); [lia|]. reflexivity. }
      pose proof (b2z_range (early e)). pose proof (b2z_range (faulty e)). nia.
Qed.

Lemma ovl_sum : y + 1 <= zsum (map ovl evs).
Proof.
  unfold ovl. pose proof y_nonneg as YN. assert (EN : y + 1 = sumf (fun _ => 1) n) by (rewrite sumf_const; unfold n; lia). rewrite EN.
  transitivity (sumf (fun u => zsum (map (fun e => b2z ((ev_start e <=? t0 + Z.of_nat u) && (t0 + Z.of_nat u <? ev_free b e))) evs)) n).
  - apply sumf_le. intros u Hu. unfold n in Hu. set (t := t0 + Z.of_nat u). pose proof C_pos. destruct (hep_waiting t) as [x [z [mx [H1 [H2 H3]]]]]; [unfold t, y in *; lia|].
    destruct (can_busy _ _ _ _ _ EX x z t) as [e [He HT]]; [apply nth_error_Some_lt in H1; exact H1|exact H3|unfold t, y in *; lia|].
    assert (B : 1 = b2z ((ev_start e <=? t) && (t <? ev_free b e))) by (destruct (Z.leb_spec (ev_start e) t), (Z.ltb_spec t (ev_free b e)); cbn; lia). rewrite B at 1.
    apply (zsum_in_le _ (fun e => b2z ((ev_start e <=? t) && (t <? ev_free b e)))); [intros; apply b2z_range|exact He].
  - clear. induction evs as [|e l IH]; cbn [map zsum]; [rewrite sumf_zero by reflexivity; lia|]. rewrite sumf_add. lia.
Qed.

Lemma sent_count j mj : nth_error ms j = Some mj -> cm_id mj < cm_id m -> zsum (map (fun e => b2z (sent j e)) evs) <= cdiv (y + cm_jitter mj + b_tau b) (cm_period mj).
Proof.
  intros Hj HP. rewrite zsum_filter_len. pose proof (WM mj (nth_error_In _ _ Hj)) as [_ [PP JJ]]. pose proof WB as [TB _]. pose proof y_nonneg as YN.
  set (l := filter (sent j) evs). destruct l as [|e0 l0] eqn:EL; [cbn; apply cdiv_nonneg; lia|]. rewrite <- EL. clear EL e0 l0.
  assert (S : forall e, In e l -> In e evs /\ ev_msg e = j /\ ev_ok e = true /\ t0 <= ev_start e <= t0 + y).
  { intros e H. unfold l in H. apply filter_In in H. destruct H as [H1 H2]. unfold sent in H2. apply andb_true_iff in H2. destruct H2 as [H2 H5]. apply andb_true_iff in H2. destruct H2 as [H2 H4]. apply andb_true_iff in H2. destruct H2 as [H2 H3].
    apply Nat.eqb_eq in H2. apply Z.leb_le in H4, H5. auto. }
  destruct (Nat.eq_dec (length l) 0) as [L0|L0]; [rewrite L0; cbn; apply cdiv_nonneg; lia|].
  assert (ND : NoDup (map ev_inst l)).
  { pose proof (can_once _ _ _ _ _ EX) as ON. assert (FL : ForallOrdPairs (fun e f => ev_msg e = ev_msg f -> ev_inst e = ev_inst f -> ev_ok e = true -> ev_ok f = true -> False) l).
    { unfold l. clear - ON. induction ON as [|e r HF HP IH]; [constructor|]. cbn [filter]. destruct (sent j e); [|exact IH]. constructor; [|exact IH]. rewrite Forall_forall in *. intros x Hx. apply filter_In in Hx. apply HF, Hx. }
    clear - FL S. induction FL as [|e r HF HP IH]; [constructor|]. cbn [map]. constructor; [|apply IH; intros x Hx; apply S; right; exact Hx].
    intros C0. apply in_map_iff in C0. destruct C0 as [f [E Hf]]. rewrite Forall_forall in HF. destruct (S e (or_introl eq_refl)) as [_ [S1 [S2 _]]]. destruct (S f (or_intror Hf)) as [_ [S3 [S4 _]]]. apply (HF f Hf); congruence. }
  pose proof (window_count (arrival j) (cm_period mj) (t0 - cm_jitter mj) (t0 + y) (map ev_inst l) PP) as WC. rewrite map_length in WC.
  assert (R : cm_period mj * (Z.of_nat (length l) - 1) <= t0 + y - (t0 - cm_jitter mj)).
  { apply WC; [intros z; apply (SP j mj Hj z)|exact ND| |intros C0; apply map_eq_nil in C0; rewrite C0 in L0; cbn in L0; lia].
    intros z Hz. apply in_map_iff in Hz. destruct Hz as [e [<- He]]. destruct (S e He) as [S1 [S2 [S3 S4]]]. rewrite <- S2 in Hj |- *.
    pose proof (ok_not_before e mj S1 S3 Hj ltac:(lia) (proj1 S4)). destruct (can_priority _ _ _ _ _ EX e mj S1 Hj) as [[QS _] _]. pose proof (SP _ mj Hj (ev_inst e)). lia. }
  pose proof (cdiv_spec (y + cm_jitter mj + b_tau b) (cm_period mj) ltac:(lia)) as [_ CS]. nia.
Qed.

Lemma contradiction : False.
Proof.
  pose proof ovl_sum as O. pose proof WB as [TB [IB EB]].
  assert (BN : 0 <= B1) by (unfold B1; pose proof (zmax_nonneg (map (transfer_delay b) (lower ms m))); lia).
  assert (EN : 0 <= E1) by (unfold E1; pose proof (zmax_nonneg (map (transfer_delay b) (higher_or_equal ms m))); lia).
  assert (U : zsum (map ovl evs) <= B1 + faults * E1 + zsum (map (fun k => cdiv (w - transfer_delay b m + cm_jitter k + b_tau b) (cm_period k) * (transfer_delay b k + b_ifs b)) (higher ms m))).
  { etransitivity; [apply (zsum_map_le _ _ (fun e => b2z (early e) * B1 + b2z (faulty e) * E1 + zsum (map (fun j => b2z (sent j e) * cj j) (seq 0 (length ms))))); intros e He; apply ovl_le; exact He|].
    rewrite zsum_map_add, zsum_map_add. apply Z.add_le_mono; [apply Z.add_le_mono|].
    - rewrite (zsum_map_ext _ _ (fun e => B1 * b2z (early e))) by (intros; lia). rewrite zsum_map_mul.
      assert (zsum (map (fun e => b2z (early e)) evs) <= 1); [|nia]. apply (fop_at_most_one _ _ _ (can_exclusive _ _ _ _ _ EX)). intros e f HR He Hf. unfold early in He, Hf. apply andb_true_iff in He, Hf. destruct He as [A1 A2], Hf as [A3 A4]. apply Z.ltb_lt in A1, A2, A3, A4. lia.
    - rewrite (zsum_map_ext _ _ (fun e => E1 * b2z (faulty e))) by (intros; lia). rewrite zsum_map_mul, zsum_filter_len. change (filter faulty evs) with (faults_in b evs t0 (t0 + w)). nia.
    - transitivity (zsum (map (fun j => zsum (map (fun e => b2z (sent j e)) evs) * cj j) (seq 0 (length ms)))).
      + clear. induction evs as [|e l IH]; cbn [map zsum].
        * apply zsum_nonneg. intros x Hx. apply in_map_iff in Hx. destruct Hx as [j [<- _]]. lia.
        * rewrite (zsum_map_ext _ (fun j => (b2z (sent j e) + zsum (map (fun e0 => b2z (sent j e0)) l)) * cj j) (fun j => b2z (sent j e) * cj j + zsum (map (fun e0 => b2z (sent j e0)) l) * cj j)) by (intros; lia).
          rewrite zsum_map_add. lia.
      + rewrite <- sumf_seq. unfold higher.
        assert (ZF : forall (f : cmsg -> Z) p l, zsum (map f (filter p l)) = zsum (map (fun x => b2z (p x) * f x) l)).
        { intros f p l. induction l as [|a l IH]; [reflexivity|]. cbn [filter map zsum]. destruct (p a); cbn [map zsum b2z]; rewrite IH; lia. }
        rewrite ZF, (zsum_map_nth _ m). apply sumf_le. intros j Hj. unfold cj. rewrite (nth_error_nth' ms m Hj). pose proof (nth_In ms m Hj) as IN.
        destruct (Z.ltb_spec (cm_id (nth j ms m)) (cm_id m)) as [L|L]; cbn [b2z]; [|lia]. pose proof (sent_count j (nth j ms m) (nth_error_nth' ms m Hj) L) as SC. pose proof (transfer_pos b _ WB (WM _ IN)).
        unfold y, C in SC. nia. }
  destruct w_fix as [FX _]. unfold recurrence in FX. fold C in FX. unfold B1, E1 in U. unfold y in O. fold C in U. lia.
Qed.
End Safe.
