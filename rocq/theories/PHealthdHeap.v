(** * healthd on the heap: pointers and values agree *)
From Verif Require Import PHeap4 PHeap5 PHeap6.
From Verif Require Export SHealthdHeap.
#[local] Open Scope Z_scope.

(** ** crashes *)
Program Definition crashes {A} (hr : heap) (c : M A) (why : string) : hP :=
  {| hprop_at h := ∀ o s hf, fair o → h ##ₘ hf → hr ⊆ hf → s_heap s = h ∪ hf → c o s = Crash why |}.
Next Obligation.
  cbn. intros A hr c why h1 h2 H Hs o s hf Ho Hd Hr Hh.
  assert (H2 : h2 = h1 ∪ (h2 ∖ h1)) by (symmetry; by apply map_difference_union).
  assert (H12 : h1 ##ₘ h2 ∖ h1).
  { apply map_disjoint_spec. intros i x y Hx Hy. apply lookup_difference_Some in Hy as [_ Hy]. congruence. }
  rewrite H2 in Hd. apply map_disjoint_union_l in Hd as [Hd1 Hd2].
  apply (H o s ((h2 ∖ h1) ∪ hf) Ho).
  - apply map_disjoint_union_r. done.
  - etrans; [exact Hr|]. by apply map_union_subseteq_r.
  - by rewrite (assoc_L _) -H2.
Qed.
Lemma crashes_crash {A} hr why : ⊢ crashes (A:=A) hr (hcrash why) why.
Proof. apply hprop_entails_at. intros h _ o s hf Ho Hd Hr Hh. done. Qed.
Lemma crashes_l {A B} hr (c : M A) (k : A → M B) why : crashes hr c why ⊢ crashes hr (hbind c k) why.
Proof.
  apply hprop_entails_at. intros h H o s hf Ho Hd Hr Hh. unfold hbind. by rewrite (H o s hf Ho Hd Hr Hh).
Qed.
Lemma crashes_r {A B} hr (c : M A) (k : A → M B) why : wp hr c (λ a, crashes hr (k a) why) ⊢ crashes hr (hbind c k) why.
Proof.
  apply hprop_entails_at. intros h H o s hf Ho Hd Hr Hh.
  destruct (H o s hf Ho Hd Hr Hh) as (h1 & s1 & a & w1 & Hc & Hd1 & Hh1 & Hl1 & Hw1 & Hdom1 & H1).
  unfold hbind. rewrite Hc. cbn. exact (H1 o s1 hf Ho Hd1 Hr Hh1).
Qed.

(** the outcome of [c] is that of the value [v] *)
Definition wpr {A X} hr (c : M A) (v : res X) (Q : X → A → hP) : hP :=
  match v with Ok x => wp hr c (Q x) | Crash why => crashes hr c why end.
Lemma wpr_bind {A B X Y} hr (c : M A) (k : A → M B) (v : res X) (kv : X → res Y) (Q : Y → B → hP) :
  wpr hr c v (λ x a, wpr hr (k a) (kv x) Q) ⊢ wpr hr (hbind c k) (x ←r v; kv x) Q.
Proof.
  destruct v as [x|why]; cbn.
  - destruct (kv x) as [y|why]; cbn; [apply wp_bind|apply crashes_r].
  - apply crashes_l.
Qed.
(** the first step of [c] has no counterpart *)
Lemma wpr_step {A B Y} hr (c : M A) (k : A → M B) (v : res Y) (Q : Y → B → hP) :
  wp hr c (λ a, wpr hr (k a) v Q) ⊢ wpr hr (hbind c k) v Q.
Proof. destruct v as [y|why]; cbn; [apply wp_bind|apply crashes_r]. Qed.
Lemma wpr_ret {A Y} hr (a : A) (y : Y) (Q : Y → A → hP) : Q y a ⊢ wpr hr (hret a) (Ok y) Q.
Proof. cbn. apply wp_ret. Qed.

Lemma wpr_wand {A Y} hr (c : M A) (v : res Y) (Q Q' : Y → A → hP) :
  wpr hr c v Q -∗ (∀ y a, Q y a -∗ Q' y a) -∗ wpr hr c v Q'.
Proof.
  iIntros "H HQ". destruct v as [y|why]; cbn; [|done]. iApply (wp_wand with "H"). iIntros (a) "H". by iApply "HQ".
Qed.

(** ** decoding *)
Lemma wp_put_map {V} hr K (R : addr → V → hP) (put : V → M addr) (m : gmap string V) (Q : addr → hP) :
  (∀ v (Q : addr → hP), (∀ p, R p v -∗ Q p) ⊢ wp hr (put v) Q) →
  (∀ p, pmap K R p m -∗ Q p) ⊢ wp hr (h_put_map K put m) Q.
Proof.
  intros Hput. iIntros "HQ". unfold h_put_map. wbind.
  iApply (wp_mfold hr _ (λ l pm, [∗ map] q;v ∈ pm; (list_to_map (reverse l) : gmap string V), R q v)%I [] with "[]").
  3:{ iIntros (pm) "Hm". cbn [app]. iApply wp_alloc. iIntros (p) "Hp". iApply "HQ". iExists pm. iFrame "Hp".
      rewrite (list_to_map_proper (reverse (map_to_list m)) (map_to_list m)).
      - by rewrite list_to_map_to_list.
      - rewrite fmap_reverse reverse_Permutation. apply NoDup_fst_map_to_list.
      - apply reverse_Permutation. }
  2:{ cbn. by iApply big_sepM2_empty. }
  intros l1 [k v] l2 pm Hl. cbn [app fst snd]. iIntros "Hm". wbind. iApply Hput. iIntros (p) "Hp". iApply wp_ret.
  rewrite reverse_app. change (list_to_map (reverse [(k, v)] ++ reverse l1)) with (<[k := v]> (list_to_map (reverse l1) : gmap string V)).
  assert (Hk : (list_to_map (reverse l1) : gmap string V) !! k = None).
  { apply not_elem_of_list_to_map. rewrite fmap_reverse. rewrite elem_of_reverse.
    pose proof (NoDup_fst_map_to_list m) as Hnd. rewrite Hl fmap_app in Hnd. apply NoDup_app in Hnd as (_ & Hnd & _).
    intros Hin. apply (Hnd k Hin). cbn. constructor. }
  iDestruct (big_sepM2_lookup_iff with "Hm") as %Hkeys.
  assert (Hpm : pm !! k = None).
  { apply eq_None_not_Some. intros H%Hkeys. rewrite Hk in H. by destruct H. }
  iApply big_sepM2_insert; [done|done|]. iFrame.
Qed.
Lemma wp_put_maps hr m (Q : hmaps → hP) : (∀ hm, maps_rep hm m -∗ Q hm) ⊢ wp hr (h_put_maps m) Q.
Proof.
  iIntros "HQ". unfold h_put_maps. wbind.
  iApply (wp_put_map hr VTimers timer_rep). { intros v Q'. iIntros "H". by iApply wp_alloc. }
  iIntros (t) "Ht". wbind. iApply wp_alloc. iIntros (g) "Hg". wbind. iApply wp_alloc. iIntros (e) "He". wbind.
  iApply (wp_put_map hr VErrs errc_rep). { intros v Q'. iIntros "H". by iApply wp_alloc. }
  iIntros (r) "Hr". iApply wp_ret. iApply "HQ". unfold maps_rep. cbn. iFrame.
Qed.
Lemma wp_put_ia hr a (Q : addr → hP) : (∀ p, ia_rep p a -∗ Q p) ⊢ wp hr (h_put_ia a) Q.
Proof.
  iIntros "HQ". unfold h_put_ia. wbind. iApply (wp_put_map hr VJobs job_rep).
  { intros j Q'. iIntros "H". unfold h_put_job. wbind. iApply wp_put_maps. iIntros (hm) "Hm".
    iApply wp_alloc. iIntros (p) "Hp". iApply "H". iExists hm. iFrame. }
  iIntros (js) "Hj". wbind. iApply wp_put_maps. iIntros (hm) "Hm". iApply wp_alloc. iIntros (p) "Hp".
  iApply "HQ". iExists js, hm. iFrame.
Qed.

Definition host_rep (x : hptr) (d : dagg) : hP :=
  (⌜hp_loc x = d_loc d ∧ hp_null x = d_null d⌝ ∗ ia_rep (hp_addr x) (d_ia d))%I.
Definition dec_rep (x : option hptr) (d : option dagg) : hP :=
  match x, d with Some x, Some d => host_rep x d | None, None => emp | _, _ => False end%I.
Lemma wp_decoded hr l (Q : list (option hptr) → hP) :
  (∀ xs, ([∗ list] x;d ∈ xs;l, dec_rep x d) -∗ Q xs) ⊢ wp hr (h_decoded l) Q.
Proof.
  iIntros "HQ". unfold h_decoded.
  iApply (wp_mfold hr _ (λ l xs, [∗ list] x;d ∈ xs;l, dec_rep x d)%I [] with "[]").
  3:{ iIntros (xs) "H". by iApply "HQ". }
  2:{ cbn. done. }
  intros l1 x l2 xs Hl. cbn. iIntros "Hm". destruct x as [d|].
  - wbind. iApply wp_put_ia. iIntros (p) "Hp". iApply wp_ret. iApply (big_sepL2_app with "Hm"). cbn. iFrame. done.
  - iApply wp_ret. iApply (big_sepL2_app with "Hm"). cbn. done.
Qed.

(** reading start and serial number *)
Lemma wp_load_rep hr p a (Q : hia → hP) :
  ia_rep p a -∗ (∀ i, ⌜hi_start i = ia_start a ∧ hi_serial i = ia_serial a⌝ -∗ ia_rep p a -∗ Q i) -∗ wp hr (load_ia p) Q.
Proof.
  iIntros "Ha HQ". iDestruct "Ha" as (ja ma) "(Hp & Ja & Ma)". iApply (wp_load_ia with "Hp"). iIntros "Hp".
  iApply "HQ"; [done|]. iExists ja, ma. iFrame.
Qed.

Definition hosts_rep (ph : gmap hkey hptr) (v : gmap hkey dagg) : hP := ([∗ map] x;d ∈ ph;v, host_rep x d)%I.

Lemma hosts_put ph v key x d : hosts_rep ph v -∗ host_rep x d -∗ hosts_rep (<[key := x]> ph) (<[key := d]> v).
Proof.
  iIntros "Hm Hv". iDestruct (big_sepM2_lookup_iff with "Hm") as %Hk.
  destruct (v !! key) as [w|] eqn:Hm.
  - destruct (ph !! key) as [q'|] eqn:Hq; [|exfalso; specialize (Hk key); rewrite Hq Hm in Hk; destruct Hk as [_ Hk]; destruct Hk; done].
    iDestruct (big_sepM2_insert_acc with "Hm") as "[_ Hm]"; [done|done|]. by iApply "Hm".
  - assert (Hpm : ph !! key = None).
    { apply eq_None_not_Some. intros H%Hk. rewrite Hm in H. by destruct H. }
    iApply big_sepM2_insert; [done|done|]. iFrame.
Qed.

Lemma wpr_consume_aggs hr inst hp xs l ph v need :
  hosts_rep ph v -∗ ([∗ list] x;d ∈ xs;l, dec_rep x d) -∗
  wpr hr (p_consume_aggs inst hp xs ph need) (consume_aggs inst hp l v need)
    (λ vr r, hosts_rep r.1 vr.1 ∗ ⌜r.2 = vr.2⌝).
Proof.
  revert l ph v need. induction xs as [|x xs IH]; intros l ph v need; iIntros "Hm Hl".
  - destruct l as [|d l]; [|done]. cbn. iApply wp_ret. by iFrame.
  - destruct l as [|d l]; [done|]. iDestruct "Hl" as "[Hx Hl]".
    destruct x as [x|], d as [d|]; try done.
    2:{ cbn. iApply crashes_crash. }
    cbn [p_consume_aggs consume_aggs]. cbn [dec_rep].
    iDestruct "Hx" as "[%Hx Hx]". destruct Hx as [Hloc Hnull].
    iApply wpr_step. iApply (wp_load_rep with "Hx"). iIntros (i [Hst Hse]) "Hx".
    rewrite Hst Hloc. change (ia_start (d_ia d), d_loc d) with (d_time d).
    iDestruct (big_sepM2_lookup_iff with "Hm") as %Hk.
    destruct (v !! (d_time d, inst, hp)) as [old|] eqn:Hv.
    + destruct (ph !! (d_time d, inst, hp)) as [q|] eqn:Hq.
      2:{ exfalso. specialize (Hk (d_time d, inst, hp)). rewrite Hq Hv in Hk. destruct Hk as [_ Hk]. destruct Hk; done. }
      iDestruct (big_sepM2_lookup_acc with "Hm") as "[Hq Hm]"; [done|done|].
      iDestruct "Hq" as "[%Hqe Hq]".
      iApply wpr_step. iApply (wp_load_rep with "Hq"). iIntros (j [Hst2 Hse2]) "Hq".
      rewrite Hse2 Hse. iSpecialize ("Hm" with "[Hq]"); [by iFrame|].
      destruct (ia_serial (d_ia old) =? ia_serial (d_ia d)).
      * iApply (IH with "Hm Hl").
      * iApply (IH with "[Hm Hx] Hl"). iApply (hosts_put with "Hm"). by iFrame.
    + assert (ph !! (d_time d, inst, hp) = None) as ->.
      { apply eq_None_not_Some. intros H%Hk. rewrite Hv in H. by destruct H. }
      iApply (IH with "[Hm Hx] Hl"). iApply (hosts_put with "Hm"). by iFrame.
Qed.

(** ** the published intervals *)
Definition pub_rep (q : pptr) (p : pagg) : hP := (⌜pp_loc q = pa_loc p⌝ ∗ ia_rep (pp_addr q) (pa_ia p))%I.
Definition pubs_rep (l : list pptr) (v : list pagg) : hP := ([∗ list] q;p ∈ l;v, pub_rep q p)%I.

Definition hd_rep (ph : phd) (v : MHealthd.hd) : hP :=
  (⌜ph_dur ph = hd_dur v ∧ ph_max ph = hd_max v ∧ ph_need ph = hd_need v ∧ ph_status ph = hd_status v⌝ ∗
   pubs_rep (ph_pub ph) (hd_pub v) ∗ hosts_rep (ph_host ph) (hd_host v))%I.

Lemma wpr_consume hr ph v r xs t1 t2 :
  hd_rep ph v -∗ ([∗ list] x;d ∈ xs;r_aggs r, dec_rep x d) -∗
  wpr hr (p_consume ph r xs t1 t2) (consume v r t1 t2) (λ v' ph', hd_rep ph' v').
Proof.
  iIntros "(%He & Hp & Hh) Hx". destruct He as (E1 & E2 & E3 & E4). unfold p_consume, consume. rewrite E4 E1.
  destruct (resp_good r); [|iApply wpr_ret; iFrame; cbn; by rewrite E2 E3].
  destruct (hd_dur v =? 0); [destruct (r_dur r =? 0); [iApply crashes_crash|]|destruct (hd_dur v =? r_dur r)].
  - rewrite E3. iApply wpr_bind. iApply (wpr_wand with "[Hh Hx]"); [iApply (wpr_consume_aggs with "Hh Hx")|].
    iIntros (x [ph' nd]) "[Hh %Hn]". cbn in *. subst nd. iApply wp_ret. iFrame. done.
  - rewrite E3. iApply wpr_bind. iApply (wpr_wand with "[Hh Hx]"); [iApply (wpr_consume_aggs with "Hh Hx")|].
    iIntros (x [ph' nd]) "[Hh %Hn]". cbn in *. subst nd. iApply wp_ret. iFrame. cbn. by rewrite E2.
  - iApply wpr_ret. iFrame. cbn. by rewrite E2 E3.
Qed.
