(** * More about the goroutines of healthd *)
From Verif Require Import SHealthdLoop PHealthdLoop PHealthdLoop2.

(** ** every response leads to a recalculation *)
Fixpoint reqs (tr : list (Z * hact)) : Z := match tr with [] => 0 | (_, HReq) :: tr => 1 + reqs tr | _ :: tr => reqs tr end.
Fixpoint takes (tr : list (Z * hact)) : Z := match tr with [] => 0 | (_, HDeb DTake) :: tr => 1 + takes tr | _ :: tr => takes tr end.
Lemma reqs_nonneg tr : 0 ≤ reqs tr.
Proof. induction tr as [|[t a] tr IH]; [done|]. destruct a; cbn; lia. Qed.
Lemma req_balance s tr s' : hlsteps s tr s' → l_req s' = l_req s + reqs tr - takes tr.
Proof.
  induction 1 as [s|s [t a] s1 tr s' H1 H2 IH]; [cbn; lia|]. rewrite IH. clear IH H2.
  inversion H1; subst; cbn; after_case; try lia.
Qed.
Lemma areq_leaves s tr s' : hlsteps s tr s' → l_loop s = AReq → l_loop s' ≠ AReq → 1 ≤ reqs tr.
Proof.
  induction 1 as [s|s [t a] s1 tr s' H1 H2 IH]; intros Hl Hn; [done|]. pose proof (reqs_nonneg tr).
  assert (a = HReq ∨ l_loop s1 = AReq) as [->|Hs]; [|cbn; lia|].
  { inversion H1; subst; cbn in *; try (left; done); try congruence; right; done. }
  specialize (IH Hs Hn). destruct a; cbn; lia.
Qed.
Lemma crash_stays s tr s' : hlsteps s tr s' → l_loop s = ACrash → l_loop s' = ACrash.
Proof.
  induction 1 as [s|s [t a] s1 tr s' H1 H2 IH]; intros Hl; [done|]. apply IH. inversion H1; subst; cbn in *; congruence.
Qed.
Lemma takes_pos tr : 1 ≤ takes tr → ∃ t, (t, DTake) ∈ deb_part tr.
Proof.
  induction tr as [|[t a] tr IH]; [cbn; lia|]. intros H.
  assert (a = HDeb DTake ∨ 1 ≤ takes tr) as [->|Hp].
  { destruct a as [| | | | | |[]| | | | | | | | | |]; cbn in H; first [right; exact H|left; reflexivity]. }
  - exists t. cbn. left.
  - destruct (IH Hp) as [u Hu]. exists u. change ((t, a) :: tr) with ([(t, a)] ++ tr). rewrite deb_part_app. apply elem_of_app. by right.
Qed.
Lemma pending_some l2 : ∀ l1 t, (t, DTake) ∈ l2 → (∀ t', (t', DSent) ∉ l2) → pending (l1 ++ l2) ≠ [].
Proof.
  induction l2 as [|[u a] l2 IH] using rev_ind; intros l1 t Hin Hno; [by apply elem_of_nil in Hin|].
  rewrite app_assoc, pending_snoc. cbn. destruct a; cbn; try (intros E; apply app_eq_nil in E as [_ E]; done).
  - eapply (IH l1 t); [|intros t' Ht; apply (Hno t'), elem_of_app; by left]. apply elem_of_app in Hin as [?|Hin]; [done|]. apply elem_of_list_singleton in Hin. congruence.
  - eapply (IH l1 t); [|intros t' Ht; apply (Hno t'), elem_of_app; by left]. apply elem_of_app in Hin as [?|Hin]; [done|]. apply elem_of_list_singleton in Hin. congruence.
  - exfalso. apply (Hno u), elem_of_app. right. left.
Qed.
Lemma no_deb_sent s tr s' t : hlsteps s tr s' → (t, HDeb DSent) ∉ tr.
Proof.
  induction 1 as [s|s [u a] s1 tr s' H1 H2 IH]; intros Hin; [by apply elem_of_nil in Hin|].
  apply elem_of_cons in Hin as [[= <- <-]|Hin]; [|done]. inversion H1.
Qed.
Lemma thm_not_forgotten hosts tr1 t k r t1 t2 tr2 s :
  hlsteps (hl_init hosts) (tr1 ++ (t, HTakeResp k r t1 t2) :: tr2) s → l_loop s ≠ ACrash → l_loop s ≠ AReq → l_req s = 0 →
  (∃ t' o, (t', HFire o) ∈ tr2) ∨ pending (deb_part (tr1 ++ (t, HTakeResp k r t1 t2) :: tr2)) ≠ [].
Proof.
  intros H Hc Hl Hr. apply hlsteps_app in H as (m & H1 & H2). inversion H2 as [|? ? m1 ? ? H3 H4]; subst.
  assert (l_loop m1 = AReq ∧ l_req m1 = l_req m) as [Hm Hq].
  { inversion H3; subst; after_case; [done|]. exfalso. apply Hc. by eapply crash_stays. }
  pose proof (req_balance _ _ _ H4) as B. pose proof (areq_leaves _ _ _ H4 Hm Hl) as L.
  assert (0 ≤ l_req m) as N by apply (req_bound _ _ _ H1).
  destruct (takes_pos tr2) as [u Hu]; [lia|].
  assert (Decision (∃ x, x ∈ tr2 ∧ match x.2 with HFire _ => True | _ => False end)) as [D|D].
  { clear. induction tr2 as [|[t a] tr IH]; [right; intros (x & Hx & _); by apply elem_of_nil in Hx|].
    destruct IH as [IH|IH]; [left; destruct IH as (x & Hx & ?); exists x; split; [by right|done]|].
    assert ({match a with HFire _ => True | _ => False end} + {¬ match a with HFire _ => True | _ => False end}) as [D|D] by (destruct a; tauto).
    - left. exists (t, a). split; [left|done].
    - right. intros (x & Hx & Hf). apply elem_of_cons in Hx as [->|Hx]; [done|]. apply IH. eauto. }
  - left. destruct D as ([t' a] & Hx & Hf). destruct a; try done. eauto.
  - right. rewrite deb_part_app. change ((t, HTakeResp k r t1 t2) :: tr2) with ([(t, HTakeResp k r t1 t2)] ++ tr2). rewrite deb_part_app. cbn [deb_part omap list_omap app].
    eapply pending_some; [exact Hu|]. intros t' Ht'. apply D. unfold deb_part in Ht'. apply elem_of_list_omap in Ht' as ([u' a] & Hx & Hf).
    exists (u', a). split; [done|]. cbn in Hf. destruct a as [| | | | | |[]| | | | | | | | | |]; try done. exfalso. by eapply no_deb_sent.
Qed.

(** ** refusing *)
Lemma thm_refused hosts tr1 t i q tr2 s : hlsteps (hl_init hosts) (tr1 ++ (t, HRefuse i q) :: tr2) s → ∃ t' j, (t', HStop j) ∈ tr1.
Proof.
  intros H. apply hlsteps_app in H as (m & H1 & H2). inversion H2 as [|? ? s1 ? ? H3 H4]; subst.
  eapply flag_inv; [done|]. by inversion H3.
Qed.
