(** The processor-demand criterion between two bounds: QPA and the iteration
    over the arrival curve, for any notion of demand that grows with the length
    of the interval and changes at the check points only. *)
From Coq Require Import NArith ZArith QArith Qround List Bool Lia.
From Verif Require Import ModelLocking ModelLP ModelLPSpin ModelPEDF.
Import ListNotations.
Open Scope Z_scope.

Section Generic.
Variables (info : list taskinfo) (c : nat) (a : analysis) (dem : Z -> Z -> Prop) (minD : Z).
Hypothesis MIN : minD = min_deadline info c.
Hypothesis MIN1 : 1 <= minD.
Hypothesis PDC : forall t w, minD <= t -> dem t w -> w <= DBF exact info c t + blocking_PDC a t.
Hypothesis TIGHT : forall t w lb, minD <= t -> dem t w -> w <= DBF exact info c t + tighter_PDC a t (blocking_PDC a t) lb.
Hypothesis MONO : forall t t' w, minD <= t -> t <= t' -> dem t w -> exists w', w <= w' /\ dem t' w'.
Hypothesis STEP : forall T t w, minD < T -> last_check_point_before exact info c T <= t -> minD <= t < T -> dem t w ->
  minD <= last_check_point_before exact info c T /\ exists w', w <= w' /\ dem (last_check_point_before exact info c T) w'.

Lemma dem_at t t' w b : minD <= t -> t <= t' -> dem t w -> (forall w', dem t' w' -> w' <= b) -> w <= b.
Proof. intros H1 H2 D B. destruct (MONO t t' w H1 H2 D) as [w' [L D']]. specialize (B w' D'). lia. Qed.

Lemma qpa_true t_LB t_UB lbi : minD <= t_LB -> forall fuel cp out found out',
  (forall t w, t_LB <= t < t_UB -> cp <= t -> dem t w -> w <= t \/ (minD <= cp /\ exists w', w <= w' /\ dem cp w')) ->
  qpa_loop fuel exact info c a t_LB lbi cp out found = Some (true, out') ->
  forall t w, t_LB <= t < t_UB -> dem t w -> w <= t \/ exists p w', minD <= p < t_LB /\ w <= w' /\ dem p w'.
Proof.
  intros ML. induction fuel as [|f IH]; intros cp out found out' INV Q t w T D; [discriminate|]. cbn [qpa_loop] in Q.
  destruct (Z.ltb_spec cp t_LB) as [L|L].
  { destruct (INV t w T ltac:(lia) D) as [X|[M [w' [X1 X2]]]]; [left; exact X|right; exists cp, w'; repeat split; auto; lia]. }
  (* what a sufficient check at cp gives *)
  assert (OK : forall total, (forall w', dem cp w' -> w' <= total) -> total <= cp ->
    forall t w, t_LB <= t < t_UB -> (if total <? cp then total else last_check_point_before exact info c cp) <= t -> dem t w ->
      w <= t \/ (minD <= (if total <? cp then total else last_check_point_before exact info c cp) /\ exists w', w <= w' /\ dem (if total <? cp then total else last_check_point_before exact info c cp) w')).
  { intros total B LE t' w' T' C' D'.
    assert (GE : cp <= t' -> w' <= t').
    { intros G. destruct (INV t' w' T' G D') as [X|[M [w'' [X1 X2]]]]; [exact X|]. specialize (B _ X2). lia. }
    destruct (Z.le_gt_cases cp t') as [G|G]; [left; apply GE; exact G|].
    destruct (Z.ltb_spec total cp) as [L2|L2].
    - left. pose proof (dem_at t' cp w' total ltac:(lia) ltac:(lia) D' B). lia.
    - right. apply (STEP cp t' w'); [lia|exact C'|lia|exact D']. }
  assert (BP : forall w', dem cp w' -> w' <= DBF exact info c cp + blocking_PDC a cp) by (intros w' D'; apply PDC; [lia|exact D']).
  destruct (Z.ltb_spec (exact (DBF exact info c cp + blocking_PDC a cp)) t_LB) as [L1|L1]; change (exact (DBF exact info c cp + blocking_PDC a cp)) with (DBF exact info c cp + blocking_PDC a cp) in *.
  { left. destruct (Z.le_gt_cases cp t) as [G|G].
    - destruct (INV t w T G D) as [X|[M [w' [X1 X2]]]]; [exact X|]. specialize (BP _ X2). lia.
    - pose proof (dem_at t cp w _ ltac:(lia) ltac:(lia) D BP). lia. }
  destruct (Z.ltb_spec cp (DBF exact info c cp + blocking_PDC a cp)) as [L2|L2].
  - destruct (Z.ltb_spec cp (exact (DBF exact info c cp + tighter_PDC a cp (blocking_PDC a cp) lbi))) as [L3|L3]; [discriminate|].
    eapply IH; [|exact Q|exact T|exact D]. apply (OK (exact (DBF exact info c cp + tighter_PDC a cp (blocking_PDC a cp) lbi))); [|exact L3].
    intros w' D'. apply TIGHT; [lia|exact D'].
  - eapply IH; [|exact Q|exact T|exact D]. apply (OK (DBF exact info c cp + blocking_PDC a cp)); [|exact L2]. exact BP.
Qed.

Lemma QPA_true fuel t_LB t_UB lbi out : minD <= t_LB -> QPA fuel exact info c a t_LB t_UB lbi = Some (true, out) ->
  forall t w, t_LB <= t < t_UB -> dem t w -> w <= t \/ exists p w', minD <= p < t_LB /\ w <= w' /\ dem p w'.
Proof.
  intros ML Q. unfold QPA in Q.
  eapply (qpa_true t_LB t_UB lbi ML fuel); [|exact Q]. intros t w T C D. right. apply (STEP t_UB t w); [lia|exact C|lia|exact D].
Qed.

Definition bw (x : Z) : Z := arrival_curve exact info c x + blocking_AC a x.

Lemma loop_covers : forall fuel qfuel last lb, schedulable_loop fuel qfuel exact info c a last lb = Some true -> (forall x, 1 <= x -> 1 <= bw x) -> 1 <= last ->
  exists F, 1 <= F /\ bw F = F /\ forall t w, minD <= t -> last <= t < F -> dem t w -> w <= t \/ exists p w', minD <= p < t /\ w <= w' /\ dem p w'.
Proof.
  induction fuel as [|f IH]; intros qfuel last lb Q B L; [discriminate|]. cbn [schedulable_loop] in Q. change (exact (arrival_curve exact info c last + blocking_AC a last)) with (bw last) in Q.
  destruct (Z.eqb_spec (bw last) last) as [EQ|NE].
  - exists last. split; [exact L|split; [exact EQ|]]. intros; lia.
  - rewrite <- MIN in Q. set (t_LB := if minD <? last then last else minD) in Q. assert (TL : t_LB = Z.max last minD) by (unfold t_LB; destruct (Z.ltb_spec minD last); lia).
    destruct (QPA qfuel exact info c a t_LB (bw last) lb) as [[[|] out]|] eqn:QQ; try discriminate.
    destruct (IH qfuel (bw last) out Q B (B last L)) as [F [F1 [F2 F3]]]. exists F. split; [exact F1|split; [exact F2|]]. intros t w M T D.
    destruct (Z.le_gt_cases (bw last) t) as [G|G]; [apply F3; [exact M|lia|exact D]|].
    destruct (QPA_true qfuel t_LB (bw last) lb out ltac:(lia) QQ t w ltac:(lia) D) as [X|[p [w' [P1 [P2 P3]]]]]; [left; exact X|right; exists p, w'; repeat split; auto; lia].
Qed.

(** the test accepts: no demand exceeds its interval below the fixed point *)
Lemma schedulable_covers fuel : is_schedulable fuel exact info c a = Some true -> (forall x, 1 <= x -> 1 <= bw x) ->
  exists F, 1 <= F /\ bw F = F /\ forall t w, minD <= t < F -> dem t w -> w <= t.
Proof.
  intros Q B. destruct (loop_covers _ _ _ _ Q B ltac:(lia)) as [F [F1 [F2 F3]]]. exists F. split; [exact F1|split; [exact F2|]].
  intros t. assert (X : forall m t w, t < minD + Z.of_nat m -> minD <= t < F -> dem t w -> w <= t).
  { induction m as [|m IHm]; intros t' w Hm T D; [lia|]. destruct (F3 t' w ltac:(lia) ltac:(lia) D) as [Y|[p [w' [P1 [P2 P3]]]]]; [exact Y|]. specialize (IHm p w' ltac:(lia) ltac:(lia) P3). lia. }
  intros w T D. apply (X (Z.to_nat (t - minD + 1)) t w); [lia|exact T|exact D].
Qed.
End Generic.
