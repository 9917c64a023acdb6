(** QPA decides the processor-demand criterion. *)
From Coq Require Import ZArith QArith List Bool Lia Lqa.
From Verif Require Import Base ModelNative ModelQPA.
Import ListNotations.
Open Scope Z_scope.

Definition good (t : ntask) : Prop := 1 <= n_wcet t /\ 1 <= n_period t /\ 1 <= n_deadline t.
Definition h (ts : ntaskset) (x : Z) : Z := zsum (map (fun t => bound_demand t x) ts).

Lemma fold_add_zsum : forall A (f : A -> Z) l a, fold_left (fun d t => d + f t) l a = a + zsum (map f l).
Proof. induction l; intros; simpl; [lia|]. rewrite IHl. lia. Qed.

Lemma demand_h : forall ts x, ns_bound_demand ts x = h ts x.
Proof. intros. unfold ns_bound_demand, h. rewrite fold_add_zsum. lia. Qed.

Lemma bd_nonneg : forall t x, good t -> 0 <= bound_demand t x.
Proof.
  intros t x [? [? ?]]. unfold bound_demand. destruct (Z.ltb_spec (x - n_deadline t) 0); [lia|].
  assert (0 <= (x - n_deadline t) / n_period t) by (apply Z.div_pos; lia). nia.
Qed.

Lemma bd_mono : forall t x y, good t -> x <= y -> bound_demand t x <= bound_demand t y.
Proof.
  intros t x y Hg Hxy. pose proof (bd_nonneg t y Hg) as Hn. destruct Hg as [? [? ?]]. unfold bound_demand in *.
  destruct (Z.ltb_spec (x - n_deadline t) 0); [assumption|].
  destruct (Z.ltb_spec (y - n_deadline t) 0); [lia|].
  assert ((x - n_deadline t) / n_period t <= (y - n_deadline t) / n_period t) by (apply Z.div_le_mono; lia). nia.
Qed.

Lemma h_nonneg : forall ts x, Forall good ts -> 0 <= h ts x.
Proof.
  intros ts x H. apply zsum_nonneg. intros v Hv. apply in_map_iff in Hv. destruct Hv as [t [<- Ht]].
  apply bd_nonneg. rewrite Forall_forall in H. apply H. assumption.
Qed.

Lemma h_mono : forall ts x y, Forall good ts -> x <= y -> h ts x <= h ts y.
Proof.
  intros ts x y H Hxy. apply zsum_map_le. intros t Ht. apply bd_mono; [|assumption].
  rewrite Forall_forall in H. apply H. assumption.
Qed.

(** ** Busy interval *)
Lemma busy_step_eq : forall ts x, busy_step ts x = zsum (map (fun t => cdiv x (n_period t) * n_wcet t) ts).
Proof. intros. unfold busy_step, divide_with_ceil. rewrite fold_add_zsum. lia. Qed.

Lemma bd_shift : forall t L x, good t -> 0 <= L -> bound_demand t x <= cdiv L (n_period t) * n_wcet t + bound_demand t (x - L).
Proof.
  intros t L x Hg HL. pose proof (bd_nonneg t (x - L) Hg) as Hn. destruct Hg as [HC [HT HD]].
  pose proof (cdiv_spec L (n_period t) ltac:(lia)) as Hc. set (c := cdiv L (n_period t)) in *.
  assert (0 <= c) by (apply cdiv_nonneg; lia).
  unfold bound_demand in *. destruct (Z.ltb_spec (x - n_deadline t) 0); [nia|].
  pose proof (div_spec (x - n_deadline t) (n_period t) ltac:(lia)) as Hd.
  set (q := (x - n_deadline t) / n_period t) in *.
  destruct (Z.ltb_spec (x - L - n_deadline t) 0).
  - assert (q + 1 <= c) by nia. nia.
  - pose proof (div_spec (x - L - n_deadline t) (n_period t) ltac:(lia)) as Hd2.
    set (q2 := (x - L - n_deadline t) / n_period t) in *.
    assert (q <= c + q2) by nia. nia.
Qed.

Lemma h_shift : forall ts L x, Forall good ts -> 0 <= L -> h ts x <= busy_step ts L + h ts (x - L).
Proof.
  intros ts L x H HL. rewrite busy_step_eq. unfold h. rewrite <- zsum_map_add. apply zsum_map_le.
  intros t Ht. apply bd_shift; [|assumption]. rewrite Forall_forall in H. apply H. assumption.
Qed.

Definition violation (ts : ntaskset) (x : Z) : Prop := 0 <= x /\ x < h ts x.

Lemma violation_below_busy : forall ts L, Forall good ts -> 0 < L -> busy_step ts L = L ->
  forall x, violation ts x -> exists y, y < L /\ violation ts y.
Proof.
  intros ts L Hg HL Hfix.
  assert (H : forall n x, x < Z.of_nat n * L -> violation ts x -> exists y, y < L /\ violation ts y).
  { induction n as [|n IH]; intros x Hx [V1 V2]; [lia|].
    destruct (Z.lt_ge_cases x L) as [G|G].
    - exists x. repeat split; assumption.
    - apply (IH (x - L)); [rewrite Nat2Z.inj_succ in Hx; nia|]. split; [lia|].
      pose proof (h_shift ts L x Hg ltac:(lia)). lia. }
  intros x Hv. apply (H (Z.to_nat (x + 1)) x); [|assumption]. destruct Hv. rewrite Z2Nat.id by lia. nia.
Qed.

Lemma busy_step_mono : forall ts x y, Forall good ts -> x <= y -> busy_step ts x <= busy_step ts y.
Proof.
  intros ts x y Hg Hxy. rewrite !busy_step_eq. apply zsum_map_le. intros t Ht. rewrite Forall_forall in Hg.
  destruct (Hg t Ht) as [? [? ?]]. assert (cdiv x (n_period t) <= cdiv y (n_period t)) by (apply cdiv_le; lia). nia.
Qed.

Definition costs (ts : ntaskset) : Z := zsum (map n_wcet ts).

Lemma costs_le_busy : forall ts x, Forall good ts -> 0 < x -> costs ts <= busy_step ts x.
Proof.
  intros ts x Hg Hx. rewrite busy_step_eq. apply zsum_map_le. intros t Ht. rewrite Forall_forall in Hg.
  destruct (Hg t Ht) as [? [? ?]]. assert (1 <= cdiv x (n_period t)) by (apply cdiv_pos; lia). nia.
Qed.

Lemma costs_pos : forall ts, Forall good ts -> ts <> [] -> 0 < costs ts.
Proof.
  intros [|t ts] Hg Hne; [congruence|]. inv Hg. unfold costs. cbn [map zsum].
  assert (0 <= zsum (map n_wcet ts)); [|destruct H1; lia]. apply zsum_nonneg. intros v Hv.
  apply in_map_iff in Hv. destruct Hv as [u [<- Hu]]. rewrite Forall_forall in H2. destruct (H2 u Hu). lia.
Qed.

Lemma busy_loop_some : forall fuel ts c L, busy_loop fuel ts c = Some L -> busy_step ts L = L.
Proof.
  induction fuel as [|f IH]; intros ts c L H; cbn in H; [discriminate|].
  destruct (Z.eqb_spec c (busy_step ts c)) as [E|E]; cbn in H.
  - inv H. congruence.
  - eapply IH. eassumption.
Qed.

Lemma busy_loop_ge : forall fuel ts c L, Forall good ts -> c <= busy_step ts c ->
  busy_loop fuel ts c = Some L -> c <= L.
Proof.
  induction fuel as [|f IH]; intros ts c L Hg Hc H; cbn in H; [discriminate|].
  destruct (Z.eqb_spec c (busy_step ts c)) as [E|E]; cbn in H.
  - inv H. lia.
  - apply IH in H; [lia|assumption|]. apply busy_step_mono; assumption.
Qed.

Lemma busy_loop_terminates : forall fuel ts c M, Forall good ts -> c <= busy_step ts c -> c <= M -> busy_step ts M <= M ->
  M - c < Z.of_nat fuel -> exists L, busy_loop fuel ts c = Some L /\ L <= M.
Proof.
  induction fuel as [|f IH]; intros ts c M Hg Hc HcM HM Hf; [simpl in Hf; lia|]. cbn.
  destruct (Z.eqb_spec c (busy_step ts c)) as [E|E]; cbn.
  - exists c. split; [reflexivity|assumption].
  - apply IH; try assumption.
    + apply busy_step_mono; assumption.
    + pose proof (busy_step_mono ts c M Hg HcM). lia.
    + rewrite Nat2Z.inj_succ in Hf. lia.
Qed.

(** ** Utilization in integers: scaled by the product of all periods *)
Definition prod (ts : ntaskset) : Z := fold_right (fun t p => n_period t * p) 1 ts.
Definition scaled (P : Z) (ts : ntaskset) : Z := zsum (map (fun t => n_wcet t * (P / n_period t)) ts).

Lemma prod_pos : forall ts, Forall good ts -> 1 <= prod ts.
Proof. intros ts H. induction H as [|t ts [? [? ?]] HF IH]; cbn; [lia|]. fold (prod ts). nia. Qed.

Lemma prod_div : forall ts t, Forall good ts -> In t ts -> (n_period t | prod ts).
Proof.
  intros ts t Hg Hin. induction Hg as [|u ts [? [? ?]] HF IH]; [inv Hin|]. cbn. fold (prod ts).
  destruct Hin as [->|Hin].
  - apply Z.divide_factor_l.
  - apply Z.divide_mul_r. apply IH. assumption.
Qed.

Lemma qsum_fold : forall A (f : A -> Q) l a, (fold_left (fun u t => u + f t) l a == a + fold_right (fun t u => f t + u) 0 l)%Q.
Proof.
  induction l as [|x l IH]; intros a; cbn; [ring|]. rewrite IH. ring.
Qed.

Definition rsum {A} (f : A -> Q) (l : list A) : Q := fold_right (fun t u => (f t + u)%Q) 0%Q l.

Lemma ns_util_eq : forall ts, (ns_util ts == rsum n_util ts)%Q.
Proof. intros. unfold ns_util. rewrite qsum_fold. unfold rsum. ring. Qed.

Lemma inject_zsum : forall A (f : A -> Z) l, (inject_Z (zsum (map f l)) == rsum (fun x => inject_Z (f x)) l)%Q.
Proof. induction l as [|x l IH]; cbn; [reflexivity|]. rewrite inject_Z_plus, IH. reflexivity. Qed.

Lemma rsum_ext : forall A (f g : A -> Q) l, (forall x, In x l -> f x == g x)%Q -> (rsum f l == rsum g l)%Q.
Proof.
  induction l as [|x l IH]; intros H; cbn; [reflexivity|]. fold (rsum f l) (rsum g l).
  rewrite IH by (intros; apply H; right; assumption). rewrite H by (left; reflexivity). reflexivity.
Qed.

Lemma rsum_le : forall A (f g : A -> Q) l, (forall x, In x l -> f x <= g x)%Q -> (rsum f l <= rsum g l)%Q.
Proof.
  induction l as [|x l IH]; intros H; cbn; [apply Qle_refl|]. fold (rsum f l) (rsum g l).
  apply Qplus_le_compat; [apply H; left; reflexivity|]. apply IH. intros. apply H. right. assumption.
Qed.

Lemma rsum_mul : forall A (f : A -> Q) c l, (rsum (fun x => c * f x) l == c * rsum f l)%Q.
Proof. induction l as [|x l IH]; cbn; [ring|]. fold (rsum (fun x => c * f x)%Q l) (rsum f l). rewrite IH. ring. Qed.

Lemma rsum_add : forall A (f g : A -> Q) l, (rsum (fun x => f x + g x) l == rsum f l + rsum g l)%Q.
Proof. induction l as [|x l IH]; cbn; [ring|]. fold (rsum (fun x => f x + g x)%Q l) (rsum f l) (rsum g l). rewrite IH. ring. Qed.

Lemma frac_spec : forall a b, 0 < b -> (frac a b * inject_Z b == inject_Z a)%Q.
Proof.
  intros a b Hb. unfold frac. field. intro F. apply Qeq_bool_iff in F. unfold Qeq_bool in F. cbn in F.
  apply Zeq_bool_eq in F. lia.
Qed.

Lemma util_scaled : forall ts P, Forall good ts -> (forall t, In t ts -> (n_period t | P)) ->
  (ns_util ts * inject_Z P == inject_Z (scaled P ts))%Q.
Proof.
  intros ts P Hg HP. rewrite ns_util_eq, Qmult_comm, <- rsum_mul. unfold scaled. rewrite inject_zsum.
  apply rsum_ext. intros t Ht. rewrite Forall_forall in Hg. destruct (Hg t Ht) as [? [? ?]].
  destruct (HP t Ht) as [q Hq]. rewrite Hq. rewrite Z.div_mul by lia.
  unfold n_util. rewrite !inject_Z_mult. 
  setoid_replace (inject_Z q * inject_Z (n_period t) * frac (n_wcet t) (n_period t))%Q
    with (inject_Z q * (frac (n_wcet t) (n_period t) * inject_Z (n_period t)))%Q by ring.
  rewrite frac_spec by lia. ring.
Qed.

Lemma util_le_1 : forall ts, Forall good ts -> ((ns_util ts <= 1)%Q <-> scaled (prod ts) ts <= prod ts).
Proof.
  intros ts Hg. pose proof (prod_pos ts Hg) as HP.
  pose proof (util_scaled ts (prod ts) Hg (fun t Ht => prod_div ts t Hg Ht)) as E.
  assert (0 < inject_Z (prod ts))%Q by (change 0%Q with (inject_Z 0); rewrite <- Zlt_Qlt; lia).
  split; intros H0.
  - rewrite Zle_Qle. rewrite <- E. rewrite <- (Qmult_1_l (inject_Z (prod ts))) at 2. apply Qmult_le_compat_r; [assumption|].
    apply Qlt_le_weak. assumption.
  - rewrite Zle_Qle in H0. rewrite <- E in H0. apply Qmult_le_r with (inject_Z (prod ts)); [assumption|].
    rewrite Qmult_1_l. assumption.
Qed.

Lemma busy_step_prod : forall ts, Forall good ts -> busy_step ts (prod ts) = scaled (prod ts) ts.
Proof.
  intros ts Hg. rewrite busy_step_eq. unfold scaled. apply zsum_map_ext. intros t Ht.
  destruct (prod_div ts t Hg Ht) as [q Hq]. rewrite Hq. rewrite Forall_forall in Hg. destruct (Hg t Ht) as [? [? ?]].
  rewrite Z.div_mul by lia. rewrite (cdiv_unique _ _ q) by nia. lia.
Qed.

Lemma busy_interval_total : forall ts fuel, Forall good ts -> (ns_util ts <= 1)%Q ->
  prod ts < Z.of_nat fuel ->
  exists L, edf_busy_interval fuel ts = Some L /\ busy_step ts L = L /\ costs ts <= L <= prod ts.
Proof.
  intros ts fuel Hg Hu Hf. unfold edf_busy_interval. rewrite fold_add_zsum, Z.add_0_l. fold (costs ts).
  destruct ts as [|t ts'] eqn:Ets.
  { destruct fuel; [simpl in Hf; lia|]. exists 0. cbn. repeat split; lia. }
  rewrite <- Ets in *. assert (Hne : ts <> []) by (rewrite Ets; discriminate). clear Ets t ts'.
  apply util_le_1 in Hu; [|assumption]. pose proof (prod_pos ts Hg). pose proof (costs_pos ts Hg Hne).
  assert (H1 : costs ts <= busy_step ts (costs ts)) by (apply costs_le_busy; assumption).
  assert (H2 : costs ts <= prod ts).
  { pose proof (costs_le_busy ts (prod ts) Hg ltac:(lia)). rewrite busy_step_prod in H2 by assumption. lia. }
  destruct (busy_loop_terminates fuel ts (costs ts) (prod ts) Hg H1 H2) as [L [E HL]].
  - rewrite busy_step_prod by assumption. assumption.
  - lia.
  - exists L. split; [assumption|]. split; [eapply busy_loop_some; eassumption|]. split; [|assumption].
    eapply busy_loop_ge; eassumption.
Qed.

(** over-utilization violates the criterion *)
Lemma max_dl_bound : forall ts, exists M, 0 <= M /\ forall t, In t ts -> n_deadline t <= M.
Proof.
  induction ts as [|t ts [M [H1 H2]]]; [exists 0; split; [lia|intros ? []]|].
  exists (Z.max M (n_deadline t)). split; [lia|]. intros u [<-|Hu]; [lia|]. specialize (H2 u Hu). lia.
Qed.

Lemma over_utilized_violation : forall ts, Forall good ts -> prod ts < scaled (prod ts) ts -> exists x, violation ts x.
Proof.
  intros ts Hg Hs. destruct (max_dl_bound ts) as [M [HM0 HM]]. pose proof (prod_pos ts Hg) as HP.
  set (k := M + 1). exists (k * prod ts + M). split; [unfold k; nia|].
  assert (k * scaled (prod ts) ts <= h ts (k * prod ts + M)); [|unfold k in *; nia].
  unfold h, scaled. rewrite <- zsum_map_mul. apply zsum_map_le. intros t Ht.
  pose proof (HM t Ht). destruct (prod_div ts t Hg Ht) as [q Hq]. rewrite Forall_forall in Hg. destruct (Hg t Ht) as [HC [HT HD]].
  rewrite Hq. rewrite Z.div_mul by lia.
  assert (Hq0 : 0 <= q) by nia.
  unfold bound_demand. destruct (Z.ltb_spec (k * (q * n_period t) + M - n_deadline t) 0); [unfold k in *; nia|].
  assert (k * q <= (k * (q * n_period t) + M - n_deadline t) / n_period t).
  { apply Z.div_le_lower_bound; [lia|]. nia. }
  nia.
Qed.

(** ** Zhang and Burns' interval *)
Lemma round_up_ge : forall q z, round_up q <= z -> (q <= inject_Z z)%Q.
Proof.
  intros [n d] z H. unfold round_up in H. cbn [Qnum Qden] in H. apply cdiv_le_iff in H; [|lia].
  unfold Qle. cbn. lia.
Qed.

Lemma round_up_le : forall q z, (q <= inject_Z z)%Q -> round_up q <= z.
Proof.
  intros [n d] z H. unfold round_up. cbn [Qnum Qden]. apply cdiv_le_iff; [lia|]. unfold Qle in H. cbn in H. lia.
Qed.

Lemma fold_max_ge : forall A (f : A -> Z) l a, a <= fold_left (fun i t => Z.max i (f t)) l a /\
  forall t, In t l -> f t <= fold_left (fun i t => Z.max i (f t)) l a.
Proof.
  induction l as [|x l IH]; intros a; cbn; [split; [lia|intros ? []]|].
  destruct (IH (Z.max a (f x))) as [H1 H2]. split; [lia|]. intros t [<-|Ht]; [lia|]. apply H2. assumption.
Qed.

Lemma bd_linear : forall t x, good t -> n_deadline t - n_period t <= x ->
  (inject_Z (bound_demand t x) <= inject_Z x * n_util t + inject_Z (n_period t - n_deadline t) * n_util t)%Q.
Proof.
  intros t x [HC [HT HD]] Hx.
  assert (HTq : (0 < inject_Z (n_period t))%Q) by (change 0%Q with (inject_Z 0); rewrite <- Zlt_Qlt; lia).
  apply Qmult_le_r with (inject_Z (n_period t)); [assumption|].
  setoid_replace ((inject_Z x * n_util t + inject_Z (n_period t - n_deadline t) * n_util t) * inject_Z (n_period t))%Q
    with ((inject_Z x + inject_Z (n_period t - n_deadline t)) * (n_util t * inject_Z (n_period t)))%Q by ring.
  unfold n_util. rewrite frac_spec by lia. rewrite <- inject_Z_plus, <- !inject_Z_mult, <- Zle_Qle.
  unfold bound_demand. destruct (Z.ltb_spec (x - n_deadline t) 0); [nia|].
  pose proof (div_spec (x - n_deadline t) (n_period t) ltac:(lia)) as Hd.
  set (q := (x - n_deadline t) / n_period t) in *. nia.
Qed.

Lemma zhang_burns_ok : forall ts x, Forall good ts -> (ns_util ts < 1)%Q ->
  zhang_burns_interval ts <= x -> h ts x <= x.
Proof.
  intros ts x Hg Hu Hx. unfold zhang_burns_interval in Hx.
  set (i0 := fold_left _ ts 0) in Hx. set (delta := fold_left _ ts 0%Q) in Hx.
  destruct (fold_max_ge _ (fun t => n_deadline t - n_period t) ts 0) as [_ Hmax]. fold i0 in Hmax.
  assert (Hr : round_up (delta / (1 - ns_util ts))%Q <= x) by lia.
  apply round_up_ge in Hr.
  assert (Hpos : (0 < 1 - ns_util ts)%Q) by lra.
  assert (Hdelta : (delta <= inject_Z x * (1 - ns_util ts))%Q).
  { apply Qmult_le_compat_r with (z := (1 - ns_util ts)%Q) in Hr; [|apply Qlt_le_weak; assumption].
    setoid_replace (delta / (1 - ns_util ts) * (1 - ns_util ts))%Q with delta in Hr; [assumption|].
    field. lra. }
  assert (Hd : (delta == rsum (fun t => inject_Z (n_period t - n_deadline t) * n_util t) ts)%Q).
  { unfold delta. rewrite (qsum_fold _ (fun t => inject_Z (n_period t - n_deadline t) * n_util t)%Q). unfold rsum. ring. }
  rewrite Zle_Qle. unfold h. rewrite inject_zsum.
  apply Qle_trans with (rsum (fun t => inject_Z x * n_util t + inject_Z (n_period t - n_deadline t) * n_util t)%Q ts).
  - apply rsum_le. intros t Ht. apply bd_linear; [rewrite Forall_forall in Hg; apply Hg; assumption|].
    specialize (Hmax t Ht). lia.
  - rewrite rsum_add, rsum_mul, <- Hd, <- ns_util_eq. lra.
Qed.

(** ** Test points *)
Lemma max_deadline_spec : forall t m, good t -> n_deadline t < m ->
  let r := max_deadline t m in let r' := if r =? m then r - n_period t else r in
  n_deadline t <= r' /\ r' < m /\ forall y, y < m -> bound_demand t y <= bound_demand t r'.
Proof.
  intros t m [HC [HT HD]] Hm r r'. unfold max_deadline in r.
  pose proof (div_spec (m - n_deadline t) (n_period t) ltac:(lia)) as Hd.
  set (q := (m - n_deadline t) / n_period t) in *.
  assert (Hk : exists k, 0 <= k /\ r' = n_deadline t + k * n_period t /\ r' < m /\ m <= r' + n_period t).
  { unfold r'. destruct (Z.eqb_spec r m) as [E|E].
    - exists (q - 1). unfold r in *. nia.
    - exists q. unfold r in *. nia. }
  destruct Hk as [k [Hk0 [Hk [Hlt Hge]]]]. split; [nia|]. split; [assumption|]. intros y Hy.
  unfold bound_demand. destruct (Z.ltb_spec (y - n_deadline t) 0) as [G|G].
  - destruct (Z.ltb_spec (r' - n_deadline t) 0); [lia|].
    assert (0 <= (r' - n_deadline t) / n_period t) by (apply Z.div_pos; lia). nia.
  - destruct (Z.ltb_spec (r' - n_deadline t) 0); [nia|].
    assert ((y - n_deadline t) / n_period t <= (r' - n_deadline t) / n_period t); [|nia].
    rewrite Hk. replace (n_deadline t + k * n_period t - n_deadline t) with (k * n_period t) by lia.
    rewrite Z.div_mul by lia. apply Z.lt_succ_r. apply Z.div_lt_upper_bound; nia.
Qed.

Lemma testpoint_gen : forall ts m p0, Forall good ts -> 0 <= p0 -> (p0 < m \/ p0 = 0) ->
  let p := fold_left (fun point t =>
    if n_deadline t <? m then
      let r := max_deadline t m in
      let r := if r =? m then r - n_period t else r in
      if point <? r then r else point
    else point) ts p0 in
  p0 <= p /\ (p < m \/ p = 0) /\ (forall y, y < m -> h ts y <= h ts p) /\
  (forall t, In t ts -> n_deadline t < m -> n_deadline t <= p).
Proof.
  intros ts m. induction ts as [|t ts IH]; intros p0 Hg Hp0 Hpm p.
  - unfold p. cbn. repeat split; try lia; auto; intros ? [].
  - inv Hg. cbn in p.
    set (p1 := if n_deadline t <? m then let r := max_deadline t m in let r := if r =? m then r - n_period t else r in
               if p0 <? r then r else p0 else p0) in p.
    assert (Hp1 : p0 <= p1 /\ (p1 < m \/ p1 = 0) /\ (forall y, y < m -> bound_demand t y <= bound_demand t p1) /\
                  (n_deadline t < m -> n_deadline t <= p1)).
    { unfold p1. destruct (Z.ltb_spec (n_deadline t) m) as [G|G].
      - pose proof (max_deadline_spec t m H1 G) as HS. cbv zeta in HS.
        set (r := max_deadline t m) in *. set (r' := if r =? m then r - n_period t else r) in *.
        destruct HS as [S1 [S2 S3]]. cbv zeta. destruct (Z.ltb_spec p0 r').
        + repeat split; try lia; assumption.
        + repeat split; try lia. intros y Hy. eapply Z.le_trans; [apply S3; assumption|]. apply bd_mono; [assumption|lia].
      - repeat split; try lia. intros y Hy. unfold bound_demand at 1. destruct (Z.ltb_spec (y - n_deadline t) 0); [|lia].
        apply bd_nonneg. assumption. }
    destruct Hp1 as [A1 [A2 [A3 A4]]].
    specialize (IH p1 H2 ltac:(lia) A2). cbv zeta in IH. fold p in IH. destruct IH as [B1 [B2 [B3 B4]]].
    repeat split; try lia.
    + intros y Hy. unfold h. cbn [map zsum]. fold (h ts y) (h ts p). specialize (A3 y Hy). specialize (B3 y Hy).
      pose proof (bd_mono t p1 p H1 B1). lia.
    + intros u [<-|Hu] Hdl; [specialize (A4 Hdl); lia|]. apply B4; assumption.
Qed.

Lemma testpoint_spec : forall ts m, Forall good ts ->
  let p := get_largest_testpoint ts m in
  0 <= p /\ (p < m \/ p = 0) /\ (forall y, y < m -> h ts y <= h ts p) /\
  (forall t, In t ts -> n_deadline t < m -> n_deadline t <= p).
Proof. intros ts m Hg p. apply (testpoint_gen ts m 0 Hg); lia. Qed.

Lemma fold_min_le : forall A (f : A -> Z) l a, fold_left (fun i t => Z.min i (f t)) l a <= a /\
  forall t, In t l -> fold_left (fun i t => Z.min i (f t)) l a <= f t.
Proof.
  induction l as [|x l IH]; intros a; cbn; [split; [lia|intros ? []]|].
  destruct (IH (Z.min a (f x))) as [H1 H2]. split; [lia|]. intros t [<-|Ht]; [lia|]. apply H2. assumption.
Qed.

Lemma fold_min_in : forall A (f : A -> Z) l a, fold_left (fun i t => Z.min i (f t)) l a = a \/
  exists t, In t l /\ fold_left (fun i t => Z.min i (f t)) l a = f t.
Proof.
  induction l as [|x l IH]; intros a; cbn; [left; reflexivity|].
  destruct (IH (Z.min a (f x))) as [H|[t [H1 H2]]].
  - rewrite H. destruct (Z.min_spec a (f x)) as [[_ ->]|[_ ->]]; [left; reflexivity|right; exists x; split; [left|]; reflexivity].
  - right. exists t. split; [right; assumption|assumption].
Qed.

Lemma below_min : forall ts x, x < min_relative_deadline ts -> h ts x = 0.
Proof.
  intros ts x Hx. unfold h. apply Z.le_antisymm.
  - assert (zsum (map (fun t => bound_demand t x) ts) <= zsum (map (fun _ => 0) ts)).
    { apply zsum_map_le. intros t Ht. pose proof (proj2 (fold_min_le _ n_deadline ts ULONG_MAX) t Ht) as H.
      fold (min_relative_deadline ts) in H. unfold bound_demand. destruct (Z.ltb_spec (x - n_deadline t) 0); lia. }
    rewrite zsum_map_const in H. lia.
  - apply zsum_nonneg. intros v Hv. apply in_map_iff in Hv. destruct Hv as [t [<- Ht]].
    pose proof (proj2 (fold_min_le _ n_deadline ts ULONG_MAX) t Ht) as H.
    fold (min_relative_deadline ts) in H. unfold bound_demand. destruct (Z.ltb_spec (x - n_deadline t) 0); lia.
Qed.

Definition ulong_ok (ts : ntaskset) : Prop := Forall (fun t => n_deadline t <= ULONG_MAX) ts.

Lemma min_in : forall ts, ulong_ok ts -> ts <> [] -> exists t, In t ts /\ n_deadline t = min_relative_deadline ts.
Proof.
  intros ts Hu Hne. unfold min_relative_deadline. destruct (fold_min_in _ n_deadline ts ULONG_MAX) as [H|[t [H1 H2]]].
  - destruct ts as [|t ts]; [congruence|]. exists t. split; [left; reflexivity|].
    pose proof (proj2 (fold_min_le _ n_deadline (t :: ts) ULONG_MAX) t (or_introl eq_refl)). inv Hu. lia.
  - exists t. split; [assumption|congruence].
Qed.

(** ** The search loop *)
Definition confined (ts : ntaskset) (m : Z) : Prop :=
  (exists x, violation ts x) -> exists x, x <= m /\ violation ts x.

Lemma qpa_loop_correct : forall fuel ts next i d, Forall good ts ->
  0 <= next -> confined ts next ->
  qpa_loop fuel (ns_bound_demand ts) ts (min_relative_deadline ts) next = Some (i, d) ->
  d = h ts i /\ 0 <= i <= next /\
  ((d <= min_relative_deadline ts /\ forall x, ~ violation ts x) \/ (min_relative_deadline ts < d /\ violation ts i)).
Proof.
  induction fuel as [|f IH]; intros ts next i d Hg Hn Hc H; cbn in H; [discriminate|].
  rewrite demand_h in H. set (dm := h ts next) in *.
  pose proof (h_nonneg ts next Hg) as Hd0. fold dm in Hd0.
  destruct (Z.leb_spec dm next) as [G|G]; cbn [andb] in H.
  - destruct (Z.ltb_spec (min_relative_deadline ts) dm) as [G2|G2].
    + destruct (Z.ltb_spec dm next) as [G3|G3].
      * apply IH in H; try assumption.
        -- destruct H as [A1 [A2 A3]]. repeat split; try assumption; lia.
        -- intros Hv. destruct (Hc Hv) as [x [Hx [V1 V2]]]. exists x. split; [|split; assumption].
           destruct (Z.le_gt_cases x dm); [assumption|]. pose proof (h_mono ts x next Hg Hx). fold dm in H1. lia.
      * pose proof (testpoint_spec ts next Hg) as HT. cbv zeta in HT. set (p := get_largest_testpoint ts next) in *.
        destruct HT as [T1 [T2 [T3 T4]]].
        apply IH in H; try assumption.
        -- destruct H as [A1 [A2 A3]]. repeat split; try assumption; lia.
        -- intros Hv. destruct (Hc Hv) as [x [Hx [V1 V2]]].
           assert (x <> next) by (intro; subst x; fold dm in V2; lia).
           destruct (Z.le_gt_cases x p).
           ++ exists x. split; [assumption|split; assumption].
           ++ exists p. split; [lia|]. split; [assumption|]. specialize (T3 x ltac:(lia)). lia.
    + inv H. split; [reflexivity|]. split; [lia|]. left. split; [assumption|].
      intros x Hv. destruct (Hc (ex_intro _ x Hv)) as [y [Hy [V1 V2]]].
      destruct (Z.le_gt_cases dm y) as [G4|G4].
      * pose proof (h_mono ts y i Hg Hy). fold dm in H. lia.
      * rewrite below_min in V2 by lia. lia.
  - inv H. split; [reflexivity|]. split; [lia|]. right. split; [|split; assumption].
    destruct (Z.le_gt_cases dm (min_relative_deadline ts)) as [G2|]; [|assumption]. exfalso.
    pose proof (below_min ts i ltac:(lia)) as Hb. fold dm in Hb. lia.
Qed.

Lemma qpa_loop_terminates : forall fuel ts next, Forall good ts -> ulong_ok ts -> 0 <= next -> next < Z.of_nat fuel ->
  qpa_loop fuel (ns_bound_demand ts) ts (min_relative_deadline ts) next <> None.
Proof.
  induction fuel as [|f IH]; intros ts next Hg Hu Hn Hf; [simpl in Hf; lia|]. cbn. rewrite Nat2Z.inj_succ in Hf.
  rewrite demand_h. pose proof (h_nonneg ts next Hg) as Hd0.
  destruct (Z.leb_spec (h ts next) next) as [G|G]; cbn [andb]; [|discriminate].
  destruct (Z.ltb_spec (min_relative_deadline ts) (h ts next)) as [G2|G2]; [|discriminate].
  destruct (Z.ltb_spec (h ts next) next) as [G3|G3].
  - apply IH; try assumption. lia.
  - pose proof (testpoint_spec ts next Hg) as HT. cbv zeta in HT. set (p := get_largest_testpoint ts next) in *.
    destruct HT as [T1 [T2 [T3 T4]]]. apply IH; try assumption.
    destruct T2 as [T2|T2]; [lia|].
    assert (Hne : ts <> []).
    { intro E. subst ts. unfold min_relative_deadline, ULONG_MAX, h in G2. cbn in G2. lia. }
    destruct (min_in ts Hu Hne) as [u [Hu1 Hu2]].
    specialize (T4 u Hu1 ltac:(lia)). rewrite Forall_forall in Hg. destruct (Hg u Hu1). lia.
Qed.

(** ** Upper bound on the intervals *)
Lemma max_interval_spec : forall ts fuel, Forall good ts -> (ns_util ts <= 1)%Q -> prod ts < Z.of_nat fuel ->
  exists M, get_max_interval fuel ts (ns_util ts) = Some M /\ M <= prod ts /\
    ((exists x, violation ts x) -> exists x, x < M /\ violation ts x).
Proof.
  intros ts fuel Hg Hu Hf. unfold get_max_interval.
  destruct (busy_interval_total ts fuel Hg Hu Hf) as [L [-> [Hfix HL]]].
  assert (HbL : (exists x, violation ts x) -> exists x, x < L /\ violation ts x).
  { intros [x Hv]. apply violation_below_busy with x; try assumption.
    assert (ts <> []) by (intro; subst ts; destruct Hv as [? Hv]; cbn in Hv; lia).
    pose proof (costs_pos ts Hg H). lia. }
  destruct (qlt_bool (ns_util ts) 1) eqn:E.
  - exists (Z.min L (zhang_burns_interval ts)). split; [reflexivity|]. split; [lia|].
    intros Hv. destruct (HbL Hv) as [x [Hx Hvx]]. exists x. split; [|assumption].
    assert (Hlt : (ns_util ts < 1)%Q).
    { unfold qlt_bool in E. apply negb_true_iff in E. apply Qnot_le_lt. intro F. apply Qle_bool_iff in F. congruence. }
    destruct (Z.lt_ge_cases x (zhang_burns_interval ts)) as [G|G]; [lia|].
    pose proof (zhang_burns_ok ts x Hg Hlt G). destruct Hvx. lia.
  - exists L. split; [reflexivity|]. split; [lia|assumption].
Qed.

(** search from the largest test point below the bound *)
Lemma qpa_search : forall ts fuel, Forall good ts -> ulong_ok ts -> (ns_util ts <= 1)%Q -> prod ts < Z.of_nat fuel ->
  exists M i d, get_max_interval fuel ts (ns_util ts) = Some M /\
    qpa_loop fuel (ns_bound_demand ts) ts (min_relative_deadline ts) (get_largest_testpoint ts M) = Some (i, d) /\
    d = h ts i /\ 0 <= i <= Z.max 0 M /\
    ((d <= min_relative_deadline ts /\ forall x, ~ violation ts x) \/ (min_relative_deadline ts < d /\ violation ts i)).
Proof.
  intros ts fuel Hg Hul Hu Hf. destruct (max_interval_spec ts fuel Hg Hu Hf) as [M [EM [HM Hv]]].
  pose proof (testpoint_spec ts M Hg) as HT. cbv zeta in HT. set (p := get_largest_testpoint ts M) in *.
  destruct HT as [T1 [T2 [T3 T4]]]. pose proof (prod_pos ts Hg).
  pose proof (qpa_loop_terminates fuel ts p Hg Hul T1 ltac:(lia)) as Ht.
  destruct (qpa_loop fuel (ns_bound_demand ts) ts (min_relative_deadline ts) p) as [[i d]|] eqn:E; [|congruence].
  exists M, i, d. split; [assumption|]. split; [assumption|].
  apply qpa_loop_correct in E; try assumption.
  - destruct E as [A1 [A2 A3]]. repeat split; try assumption; lia.
  - intros Hx. destruct (Hv Hx) as [x [Hxm [V1 V2]]]. destruct (Z.le_gt_cases x p).
    + exists x. split; [assumption|split; assumption].
    + exists p. split; [lia|]. split; [assumption|]. specialize (T3 x Hxm). lia.
Qed.

(** ** The test *)
Lemma infeasible_violation : forall ts, Forall good ts -> has_no_suspending ts = true -> Forall (fun t => 0 <= n_susp t) ts ->
  has_only_feasible ts = false -> exists x, violation ts x.
Proof.
  intros ts Hg Hs Hs0 Hf. unfold has_only_feasible in Hf.
  assert (exists t, In t ts /\ n_feasible t = false).
  { clear -Hf. induction ts as [|t ts IH]; [discriminate|]. cbn in Hf. destruct (n_feasible t) eqn:E.
    - destruct (IH Hf) as [u [H1 H2]]. exists u. split; [right; assumption|assumption].
    - exists t. split; [left; reflexivity|assumption]. }
  destruct H as [t [Ht Hft]]. pose proof Hg as Hg'. rewrite Forall_forall in Hg, Hs0. destruct (Hg t Ht) as [HC [HT HD]]. specialize (Hs0 t Ht).
  unfold has_no_suspending in Hs. rewrite forallb_forall in Hs. specialize (Hs t Ht). unfold n_suspending in Hs.
  apply negb_true_iff in Hs. apply Z.ltb_ge in Hs.
  unfold n_feasible in Hft. rewrite (proj2 (Z.ltb_lt 0 (n_wcet t))) in Hft by lia. rewrite andb_true_r in Hft.
  assert (Hcase : n_deadline t < n_wcet t \/ n_period t < n_wcet t).
  { apply andb_false_iff in Hft. destruct Hft as [F|F]; apply Z.leb_gt in F; lia. }
  assert (Hge : forall x, bound_demand t x <= h ts x).
  { intros x. unfold h. apply (zsum_in_le _ (fun t => bound_demand t x)); [|assumption]. intros y Hy. apply bd_nonneg. apply Hg. assumption. }
  destruct Hcase as [Hd|Hp].
  - exists (n_deadline t). split; [lia|]. specialize (Hge (n_deadline t)).
    unfold bound_demand in Hge. rewrite Z.sub_diag in Hge. change (0 <? 0) with false in Hge. cbn iota in Hge. rewrite Z.div_0_l in Hge by lia. lia.
  - exists (n_deadline t + n_deadline t * n_period t). split; [nia|]. specialize (Hge (n_deadline t + n_deadline t * n_period t)).
    unfold bound_demand in Hge. replace (n_deadline t + n_deadline t * n_period t - n_deadline t) with (n_deadline t * n_period t) in Hge by lia.
    destruct (Z.ltb_spec (n_deadline t * n_period t) 0); [nia|]. rewrite Z.div_mul in Hge by lia. nia.
Qed.

Lemma qpa_exact : forall ts fuel, Forall good ts -> ulong_ok ts -> Forall (fun t => n_susp t = 0) ts -> prod ts < Z.of_nat fuel ->
  exists b, qpa_is_schedulable fuel ts = Some b /\ (b = true <-> forall x, ~ violation ts x).
Proof.
  intros ts fuel Hg Hul Hs Hf. unfold qpa_is_schedulable.
  assert (Hns : has_no_suspending ts = true).
  { apply forallb_forall. intros t Ht. rewrite Forall_forall in Hs. unfold n_suspending. rewrite (Hs t Ht). reflexivity. }
  rewrite Hns. cbn [andb]. destruct (has_only_feasible ts) eqn:Ef; cbn [negb].
  2:{ exists false. split; [reflexivity|]. split; [discriminate|]. intros H. exfalso.
      destruct (infeasible_violation ts Hg Hns) as [x Hx]; [|assumption|eapply H; eassumption].
      eapply Forall_impl; [|exact Hs]. intros ? E. rewrite E. lia. }
  destruct (qlt_bool 1 (ns_util ts)) eqn:Eu.
  - exists false. split; [reflexivity|]. split; [discriminate|]. intros H. exfalso.
    unfold qlt_bool in Eu. apply negb_true_iff in Eu.
    destruct (over_utilized_violation ts Hg) as [x Hx]; [|eapply H; eassumption].
    destruct (Z.lt_ge_cases (prod ts) (scaled (prod ts) ts)) as [|G]; [assumption|]. exfalso.
    assert (ns_util ts <= 1)%Q by (apply util_le_1; assumption). apply Qle_bool_iff in H0. congruence.
  - assert (Hu : (ns_util ts <= 1)%Q).
    { unfold qlt_bool in Eu. apply negb_false_iff in Eu. apply Qle_bool_iff. assumption. }
    destruct (qpa_search ts fuel Hg Hul Hu Hf) as [M [i [d [EM [El [Hd [Hi Hcase]]]]]]].
    rewrite EM, El. exists (d <=? min_relative_deadline ts). split; [reflexivity|].
    destruct Hcase as [[H1 H2]|[H1 H2]].
    + split; [intros _; assumption|]. intros _. apply Z.leb_le. assumption.
    + split; [intros H; apply Z.leb_le in H; lia|]. intros H. exfalso. eapply H. eassumption.
Qed.

(** ** C=D splitting *)
Definition split_task (c T : Z) : ntask := task_init c T c 0 0 0.

Lemma split_good : forall c T, 1 <= c -> 1 <= T -> good (split_task c T).
Proof.
  intros. unfold good, split_task, task_init. cbn. destruct (Z.eqb_spec c 0); lia.
Qed.

Lemma split_fields : forall c T, 1 <= c -> n_wcet (split_task c T) = c /\ n_period (split_task c T) = T /\ n_deadline (split_task c T) = c.
Proof. intros. unfold split_task, task_init. cbn. destruct (Z.eqb_spec c 0); lia. Qed.

Lemma h_app : forall a b x, h (a ++ b) x = h a x + h b x.
Proof. intros. unfold h. rewrite map_app, zsum_app. reflexivity. Qed.

Lemma h_split : forall ts c T x, h (ts ++ [split_task c T]) x = h ts x + bound_demand (split_task c T) x.
Proof. intros. rewrite h_app. unfold h at 2. cbn [map zsum]. lia. Qed.

Lemma rsum_app : forall A (f : A -> Q) a b, (rsum f (a ++ b) == rsum f a + rsum f b)%Q.
Proof.
  induction a as [|x a IH]; intros b; cbn [app].
  - unfold rsum at 2. cbn. ring.
  - unfold rsum. cbn. fold (rsum f (a ++ b)) (rsum f a) (rsum f b). rewrite IH. ring.
Qed.

Lemma util_split : forall ts c T, 1 <= c -> (ns_util (ts ++ [split_task c T]) == ns_util ts + frac c T)%Q.
Proof.
  intros. rewrite !ns_util_eq, rsum_app. unfold rsum at 2. cbn [fold_right]. unfold n_util at 2.
  destruct (split_fields c T H) as [-> [-> _]]. ring.
Qed.

Lemma prod_app : forall a b, prod (a ++ b) = prod a * prod b.
Proof. induction a as [|t a IH]; intros b; cbn [app]; [cbn; destruct (prod b); reflexivity|]. cbn. fold (prod (a ++ b)) (prod a). rewrite IH. ring. Qed.

Lemma Forall_snoc : forall A (P : A -> Prop) l x, Forall P l -> P x -> Forall P (l ++ [x]).
Proof. intros. apply Forall_app. split; [assumption|]. constructor; [assumption|constructor]. Qed.

Lemma cost_fixpoint_spec : forall fuel slack base T w lo, 1 <= T -> 0 <= slack -> 0 <= w ->
  w + T <= base -> lo = w -> slack < (base - w) / T * w -> w < Z.of_nat fuel ->
  exists c, cost_fixpoint fuel slack base T w = Some c /\ 0 <= c < w /\
    forall c', c < c' <= w -> slack < (base - c') / T * c'.
Proof.
  (* generalised: all budgets in (w, hi] already excluded *)
  assert (H : forall fuel slack base T w hi, 1 <= T -> 0 <= slack -> 0 <= w -> w <= hi -> hi + T <= base ->
    (forall c', w < c' <= hi -> slack < (base - c') / T * c') -> w < Z.of_nat fuel ->
    slack / ((base - w) / T) <= w ->
    exists c, cost_fixpoint fuel slack base T w = Some c /\ 0 <= c /\ c <= slack / ((base - w) / T) /\
      forall c', c < c' <= hi -> slack < (base - c') / T * c').
  { induction fuel as [|f IH]; intros slack base T w hi HT Hs Hw Hwh Hb Hex Hf Hle; [simpl in Hf; lia|].
    cbn [cost_fixpoint]. cbv zeta. rewrite Nat2Z.inj_succ in Hf.
    assert (Hn : 1 <= (base - w) / T) by (apply Z.div_le_lower_bound; lia).
    set (n := (base - w) / T) in *. set (w1 := slack / n) in *.
    pose proof (div_spec slack n ltac:(lia)) as Hd. fold w1 in Hd.
    assert (Hw1 : 0 <= w1) by (apply Z.div_pos; lia).
    assert (Hex1 : forall c', w1 < c' <= hi -> slack < (base - c') / T * c').
    { intros c' Hc'. destruct (Z.le_gt_cases c' w) as [G|G]; [|apply Hex; lia].
      assert (n <= (base - c') / T) by (apply Z.div_le_mono; lia). nia. }
    destruct (Z.eqb_spec w w1) as [E|E]; cbn [negb andb].
    { exists w1. repeat split; try lia. assumption. }
    destruct (Z.ltb_spec 0 w1) as [G|G].
    2:{ exists w1. repeat split; try lia. assumption. }
    assert (Hn1 : n <= (base - w1) / T) by (apply Z.div_le_mono; lia).
    assert (Hle1 : slack / ((base - w1) / T) <= w1).
    { unfold w1. apply Z.div_le_compat_l; [assumption|]. fold w1. lia. }
    destruct (IH slack base T w1 hi HT Hs Hw1 ltac:(lia) Hb Hex1 ltac:(lia) Hle1) as [c [A1 [A2 [A3 A4]]]].
    exists c. repeat split; try assumption. lia. }
  intros fuel slack base T w lo HT Hs Hw Hb _ Hv Hf.
  assert (Hn : 1 <= (base - w) / T) by (apply Z.div_le_lower_bound; lia).
  assert (Hlt : slack / ((base - w) / T) < w) by (apply Z.div_lt_upper_bound; lia).
  destruct (H fuel slack base T w w HT Hs Hw ltac:(lia) Hb ltac:(intros; lia) Hf ltac:(lia)) as [c [A1 [A2 [A3 A4]]]].
  exists c. repeat split; try assumption. lia.
Qed.

Lemma split_demand : forall c T x, 1 <= c -> c <= x -> 1 <= T -> bound_demand (split_task c T) x = (x + T - c) / T * c.
Proof.
  intros c T x Hc Hx HT. unfold bound_demand. destruct (split_fields c T Hc) as [-> [-> ->]].
  destruct (Z.ltb_spec (x - c) 0); [lia|]. replace (x + T - c) with (x - c + 1 * T) by lia. rewrite Z.div_add by lia. lia.
Qed.

Lemma frac_le : forall a b T, 0 < T -> a <= b -> (frac a T <= frac b T)%Q.
Proof.
  intros a b T HT H. assert (0 < inject_Z T)%Q by (change 0%Q with (inject_Z 0); rewrite <- Zlt_Qlt; assumption).
  apply Qmult_le_r with (inject_Z T); [assumption|]. rewrite !frac_spec by assumption. rewrite <- Zle_Qle. assumption.
Qed.

Lemma split_loop_spec : forall fuel inner ts T c wcet, Forall good ts -> ulong_ok ts -> 1 <= T ->
  (forall x, ~ violation ts x) ->
  0 <= c -> c <= wcet -> wcet <= ULONG_MAX ->
  (0 < c -> (ns_util ts + frac c T <= 1)%Q) ->
  (forall c', c < c' <= wcet -> exists x, violation (ts ++ [split_task c' T]) x) ->
  c < Z.of_nat fuel -> prod ts * T < Z.of_nat inner -> wcet < Z.of_nat inner ->
  exists r, split_loop fuel inner ts T c = Some r /\ 0 <= r <= wcet /\
    (0 < r -> forall x, ~ violation (ts ++ [split_task r T]) x) /\
    (forall c', r < c' <= wcet -> exists x, violation (ts ++ [split_task c' T]) x).
Proof.
  induction fuel as [|f IH]; intros inner ts T c wcet Hg Hul HT Hts Hc Hcw Hw Hu Hex Hf Hin1 Hin2; [simpl in Hf; lia|].
  cbn [split_loop]. rewrite Nat2Z.inj_succ in Hf. destruct (Z.ltb_spec 0 c) as [G|G]; cbn [negb].
  2:{ exists c. repeat split; try lia. assumption. }
  unfold with_split, add_task. fold (split_task c T). set (tss := ts ++ [split_task c T]).
  assert (Hgs : Forall good tss) by (apply Forall_snoc; [assumption|apply split_good; lia]).
  assert (Huls : ulong_ok tss).
  { apply Forall_snoc; [assumption|]. destruct (split_fields c T ltac:(lia)) as [_ [_ ->]]. lia. }
  assert (Hus : (ns_util tss <= 1)%Q) by (unfold tss; rewrite util_split by lia; apply Hu; assumption).
  assert (Hp : prod tss < Z.of_nat inner).
  { unfold tss. rewrite prod_app. unfold prod at 2. cbn [fold_right]. destruct (split_fields c T ltac:(lia)) as [_ [-> _]]. lia. }
  destruct (qpa_search tss inner Hgs Huls Hus Hp) as [M [i [d [EM [El [Hd [Hi Hcase]]]]]]].
  cbv zeta. rewrite EM, El.
  destruct Hcase as [[H1 H2]|[H1 H2]].
  { rewrite (proj2 (Z.leb_le _ _) H1). exists c. repeat split; try lia; try assumption. intros _. assumption. }
  destruct (Z.leb_spec d (min_relative_deadline tss)); [lia|].
  rewrite demand_h. destruct H2 as [V1 V2]. unfold tss in V2. rewrite h_split in V2.
  assert (Hts_i : h ts i <= i).
  { destruct (Z.le_gt_cases (h ts i) i) as [|G1]; [assumption|]. exfalso. apply (Hts i). split; assumption. }
  assert (Hci : c <= i).
  { destruct (Z.le_gt_cases c i) as [|G1]; [assumption|]. exfalso. unfold bound_demand in V2.
    destruct (split_fields c T ltac:(lia)) as [E1 [E2 E3]]. rewrite E3 in V2. destruct (Z.ltb_spec (i - c) 0); lia. }
  rewrite split_demand in V2 by lia.
  unfold find_feasible_cost_fixpoint.
  destruct (cost_fixpoint_spec inner (i - h ts i) (i + T) T c c HT) as [c2 [E2 [Hc2 Hex2]]]; try lia.
  rewrite E2.
  apply IH; try assumption; try lia.
  - intros _. apply Qle_trans with (ns_util ts + frac c T)%Q; [|apply Hu; assumption].
    apply Qplus_le_compat; [apply Qle_refl|]. apply frac_le; lia.
  - intros c' Hc'. destruct (Z.le_gt_cases c' c) as [G1|G1]; [|apply Hex; lia].
    exists i. split; [assumption|]. rewrite h_split, split_demand by lia. specialize (Hex2 c' ltac:(lia)). lia.
Qed.

Lemma split_exact : forall ts wcet T fuel, Forall good ts -> ulong_ok ts -> 1 <= T -> 0 <= wcet <= ULONG_MAX ->
  (forall x, ~ violation ts x) ->
  prod ts * T < Z.of_nat fuel -> wcet < Z.of_nat fuel ->
  exists r, get_max_C_equal_D_cost fuel ts wcet T = Some r /\ 0 <= r <= wcet /\
    (0 < r -> forall x, ~ violation (ts ++ [split_task r T]) x) /\
    (forall c', r < c' <= wcet -> exists x, violation (ts ++ [split_task c' T]) x).
Proof.
  intros ts wcet T fuel Hg Hul HT Hw Hts Hf1 Hf2. unfold get_max_C_equal_D_cost. cbv zeta.
  assert (HTq : (0 < inject_Z T)%Q) by (change 0%Q with (inject_Z 0); rewrite <- Zlt_Qlt; lia).
  assert (HUts : (ns_util ts <= 1)%Q).
  { apply util_le_1; [assumption|]. destruct (Z.le_gt_cases (scaled (prod ts) ts) (prod ts)) as [|G]; [assumption|].
    destruct (over_utilized_violation ts Hg G) as [x Hx]. exfalso. apply (Hts x). assumption. }
  set (u := (ns_util ts + frac wcet T)%Q). destruct (qlt_bool 1 u) eqn:E; cbn [andb].
  - assert (Hu : (1 < u)%Q).
    { unfold qlt_bool in E. apply negb_true_iff in E. apply Qnot_le_lt. intro F. apply Qle_bool_iff in F. congruence. }
    set (k := round_up ((u - 1) * inject_Z T)).
    assert (Hover : forall c', wcet - k < c' <= wcet -> 0 < c' -> exists x, violation (ts ++ [split_task c' T]) x).
    { intros c' Hc' Hpos. assert (Hgs : Forall good (ts ++ [split_task c' T])) by (apply Forall_snoc; [assumption|apply split_good; lia]).
      apply over_utilized_violation; [assumption|].
      destruct (Z.lt_ge_cases (prod (ts ++ [split_task c' T])) (scaled (prod (ts ++ [split_task c' T])) (ts ++ [split_task c' T]))) as [|G]; [assumption|].
      exfalso. assert (H1 : (ns_util (ts ++ [split_task c' T]) <= 1)%Q) by (apply util_le_1; assumption).
      rewrite util_split in H1 by lia.
      assert (k <= wcet - c'); [|lia]. apply round_up_le.
      setoid_replace ((u - 1) * inject_Z T)%Q with ((ns_util ts - 1) * inject_Z T + frac wcet T * inject_Z T)%Q by (unfold u; ring).
      rewrite frac_spec by lia. 
      setoid_replace (inject_Z (wcet - c')) with (inject_Z wcet - inject_Z c')%Q
        by (unfold Z.sub; rewrite inject_Z_plus, inject_Z_opp; ring).
      assert (H2 : ((ns_util ts + frac c' T) * inject_Z T <= 1 * inject_Z T)%Q) by (apply Qmult_le_compat_r; [assumption|lra]).
      rewrite Qmult_plus_distr_l, frac_spec in H2 by lia. lra. }
    destruct (Z.leb_spec (wcet - k) 0) as [G|G].
    + exists 0. repeat split; try lia. intros c' Hc'. apply Hover; lia.
    + assert (Hk : 0 <= k).
      { assert (~ k <= -1); [|lia]. intro F. apply round_up_ge in F. change (inject_Z (-1)) with (-(1))%Q in F.
        assert (0 <= (u - 1) * inject_Z T)%Q by (apply Qmult_le_0_compat; lra). lra. }
      apply split_loop_spec; try assumption; try lia.
      * intros _. apply Qmult_le_r with (inject_Z T); [assumption|].
        rewrite Qmult_plus_distr_l, frac_spec by lia.
        pose proof (round_up_ge ((u - 1) * inject_Z T) k ltac:(unfold k; lia)) as H1.
        setoid_replace ((u - 1) * inject_Z T)%Q with ((ns_util ts - 1) * inject_Z T + frac wcet T * inject_Z T)%Q in H1 by (unfold u; ring).
        rewrite frac_spec in H1 by lia.
        setoid_replace (inject_Z (wcet - k)) with (inject_Z wcet - inject_Z k)%Q
          by (unfold Z.sub; rewrite inject_Z_plus, inject_Z_opp; ring).
        lra.
      * intros c' Hc'. apply Hover; lia.
  - apply split_loop_spec; try assumption; try lia.
    intros _. unfold qlt_bool in E. apply negb_false_iff in E. apply Qle_bool_iff. assumption.
Qed.
