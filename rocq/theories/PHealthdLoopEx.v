(** * Concrete executions of healthd's goroutines *)
From Verif Require Import SHealthdLoop PHealthd PHealthd2 PHealthd4 PHealthdEx PHealthdLoop PHealthdLoop2 PHealthdLoop3.

(** ** A deadlock *)
Lemma wedged_stuck s tr s' : wedged s → hlsteps s tr s' →
  ops tr = [] ∧ (∀ t i a, (t, HRet i a) ∉ tr) ∧ (∀ t i, (t, HStopRet i) ∉ tr).
Proof.
  intros Hw H. induction H as [s|s a s1 tr s' H1 H2 IH].
  { repeat split; try done. all: intros; by apply not_elem_of_nil. }
  pose proof (wedged_step _ _ _ Hw H1) as (Hw1&_&_). destruct (IH Hw1) as (E1&E2&E3).
  assert (Ha : match a.2 with HTick _ | HTakeResp _ _ _ _ | HTakeNil _ _ | HFire _ | HRet _ _ | HStopRet _ => False | _ => True end).
  { destruct Hw as (Hl&_). inversion H1; subst; cbn; congruence || done. }
  destruct a as [t a]. cbn in Ha.
  split; [|split; intros t' i; [intros x|]; rewrite elem_of_cons; (intros [[= -> <-]|Hin]; [done|]); [by eapply E2|by eapply E3]].
  unfold ops in *. cbn. destruct a; cbn; done.
Qed.

(** a host that answers, and has nothing to report yet *)
Definition w_resp (h : string) : resp := Resp h 0 None 200 1000000 "i" 60000000000 [].
Definition dur_ok (s : hd) : Prop := hd_dur s = 0 ∨ hd_dur s = 60000000000.
Lemma w_consume s h t1 t2 : dur_ok s → ∃ s', consume s (w_resp h) t1 t2 = Ok s' ∧ dur_ok s'.
Proof.
  intros [E|E]; unfold consume; cbn [resp_good w_resp r_code r_err r_dur r_hp r_inst r_aggs]; rewrite E; cbn; eexists; (split; [done|]); by right.
Qed.
Definition w_label (t : Z) (a : Z * hact) : Prop :=
  a.1 = t ∧ match a.2 with HTick _ | HCall _ _ | HRet _ _ | HStop _ => False | HTakeResp _ r _ _ => usable r | _ => True end.

Lemma w_take t s h rem : l_loop s = ASel → l_resp s = [] → l_rounds s = [Some rem] → h ∈ rem → dur_ok (l_hd s) →
  ∃ tr s', hlsteps s tr s' ∧ Forall (w_label t) tr ∧ l_loop s' = AReq ∧ l_resp s' = [] ∧
    l_rounds s' = [Some (remove string_dec h rem)] ∧ dur_ok (l_hd s') ∧ l_req s' = l_req s ∧ l_deb s' = l_deb s.
Proof.
  intros El Er Eo Hin Hd.
  pose proof (Hl_push s t 0 rem (w_resp h) ltac:(by rewrite El) ltac:(by rewrite Eo) Hin ltac:(by rewrite Er)) as H1.
  set (s1 := with_queue _ _ _) in H1.
  destruct (w_consume (l_hd s) h t t Hd) as (d&Ec&Hd').
  assert (H2 : hlstep s1 (t, HTakeResp 0 (w_resp h) t t) (HL d AReq [] (l_req s) (l_deb s) [Some (remove string_dec h rem)] (l_pass s) (l_iq s) (l_hq s) (l_flag s) (l_stop s) (l_bye s))).
  { pose proof (Hl_take_resp s1 t 0 (w_resp h) [] t t El ltac:(cbn; by rewrite Er)) as H2.
    replace (consume (l_hd s1) (w_resp h) t t) with (Ok d) in H2 by (symmetry; apply Ec).
    cbn in H2. rewrite Eo in H2. cbn in H2. exact H2. }
  eexists [_; _], _. split; [econstructor; [exact H1|]; apply hlsteps_one; exact H2|]. cbn.
  split; [|done]. repeat constructor.
Qed.
Lemma w_fill t hs : ∀ s rem, l_loop s = ASel → l_resp s = [] → l_rounds s = [Some rem] → NoDup hs → (∀ h, h ∈ hs → h ∈ rem) →
  dur_ok (l_hd s) → 0 ≤ l_req s → l_req s + Z.of_nat (length hs) ≤ 64 →
  ∃ tr s' rem', hlsteps s tr s' ∧ Forall (w_label t) tr ∧ l_loop s' = ASel ∧ l_resp s' = [] ∧
    l_rounds s' = [Some rem'] ∧ (∀ h, h ∈ rem → h ∉ hs → h ∈ rem') ∧ dur_ok (l_hd s') ∧
    l_req s' = l_req s + Z.of_nat (length hs) ∧ l_deb s' = l_deb s.
Proof.
  induction hs as [|h hs IH]; intros s rem El Er Eo Hnd Hin Hd Hr Hlen.
  { exists [], s, rem. split; [constructor|]. split; [constructor|]. do 5 (split; [done|]). split; [cbn; lia|done]. }
  inversion Hnd as [|? ? Hn Hnd']; subst. cbn [length] in Hlen.
  destruct (w_take t s h rem El Er Eo ltac:(apply Hin; left) Hd) as (tr1&s1&H1&F1&El1&Er1&Eo1&Hd1&Eq1&Ed1).
  pose proof (Hl_req s1 t El1 ltac:(unfold req_cap; lia)) as H2. set (s2 := HL _ _ _ _ _ _ _ _ _ _ _ _) in H2.
  destruct (IH s2 (remove string_dec h rem)) as (tr3&s3&rem3&H3&F3&El3&Er3&Eo3&Hin3&Hd3&Eq3&Ed3); try done.
  { intros h' Hh'. apply elem_of_list_In, in_in_remove; [|apply elem_of_list_In, Hin; by right]. intros ->. done. }
  { cbn. lia. }
  { cbn. lia. }
  exists (tr1 ++ (t, HReq) :: tr3), s3, rem3. split; [apply hlsteps_app; exists s1; split; [done|]; by econstructor|].
  split; [apply Forall_app; split; [done|]; constructor; done|]. split; [done|]. split; [done|]. split; [done|].
  split. { intros h' Hh' Hnot. rewrite not_elem_of_cons in Hnot. destruct Hnot. apply Hin3; [|done].
    apply elem_of_list_In, in_in_remove; [done|by apply elem_of_list_In]. }
  split; [done|]. split; [rewrite Eq3; cbn; lia|]. rewrite Ed3. done.
Qed.

Definition w_hosts : list string := map (λ n, String (ascii_of_nat n) "") (seq 33 66).
Lemma w_nodup : NoDup w_hosts.
Proof. apply (bool_decide_unpack (NoDup _)). vm_compute. done. Qed.
Lemma w_split : w_hosts = "!" :: take 64 (drop 1 w_hosts) ++ ["b"].
Proof. vm_compute. done. Qed.
Lemma clock_const_app tr (t : Z) (l : list (Z * hact)) : clock_runs tr → (∀ u, u ∈ map fst tr → u ≤ t) → 0 < t → Forall (λ a, a.1 = t) l →
  clock_runs (tr ++ l) ∧ (∀ u, u ∈ map fst (tr ++ l) → u ≤ t).
Proof.
  intros [H1 H2] Hle Ht Hl. revert tr H1 H2 Hle. induction Hl as [|a l Ha Hl IH]; intros tr H1 H2 Hle.
  { rewrite app_nil_r. done. }
  replace (tr ++ a :: l) with ((tr ++ [a]) ++ l) by (by rewrite <-app_assoc). apply IH.
  - rewrite map_app. cbn. clear -H1 Hle Ha. induction (map fst tr) as [|x m IHm]; cbn; [repeat constructor|].
    inversion H1 as [|? ? H3 H4]; subst. constructor; [apply IHm; [done|]; intros u Hu; apply Hle; by right|].
    apply Forall_app. split; [done|]. constructor; [apply Hle; left|constructor].
  - intros u. rewrite map_app, elem_of_app. cbn. intros [Hu|Hu]; [by apply H2|]. apply elem_of_list_singleton in Hu as ->. lia.
  - intros u. rewrite map_app, elem_of_app. cbn. intros [Hu|Hu]; [by apply Hle|]. apply elem_of_list_singleton in Hu as ->. lia.
Qed.
Definition quiet (a : Z * hact) : Prop := match a.2 with HTick _ | HCall _ _ | HRet _ _ | HStop _ => False | HTakeResp _ r _ _ => usable r | _ => True end.

Lemma deadlock : ∃ tr s, clock_runs tr ∧ hlsteps (hl_init w_hosts) tr s ∧ Forall quiet tr ∧ wedged s.
Proof.
  set (s0 := hl_init w_hosts).
  assert (Hh : hosts_of (hd_init w_hosts) ≡ₚ w_hosts).
  { rewrite (hosts_of_perm w_hosts [] _ (Hr_nil _)). apply NoDup_Permutation; [apply NoDup_remove_dups|apply w_nodup|].
    intros x. apply elem_of_remove_dups. }
  assert (Hin0 : ∀ h, h ∈ w_hosts → h ∈ hosts_of (hd_init w_hosts)) by (intros h; by rewrite Hh).
  clear Hh. set (rem0 := hosts_of (hd_init w_hosts)) in *.
  pose proof w_nodup as Hnd. rewrite w_split in Hin0, Hnd. set (mid := take 64 (drop 1 w_hosts)) in *.
  assert (Hmid : length mid = 64%nat) by (vm_compute; done). clearbody mid.
  set (a := "!"%string) in *. set (b := "b"%string) in *. clearbody a b.
  inversion Hnd as [|? ? Ha Hnd']; subst. apply NoDup_app in Hnd' as (Hndm&Hmb&_).
  rewrite not_elem_of_app in Ha. destruct Ha as [Ham Hab].
  (* one response, at 1 s *)
  destruct (w_take 1000000000 s0 a rem0) as (tr1&s1&H1&F1&El1&Er1&Eo1&Hd1&Eq1&Ed1); try done.
  { apply Hin0. left. } { by left. }
  pose proof (Hl_req s1 1000000000 El1 ltac:(rewrite Eq1; done)) as H2. set (s2 := HL _ _ _ _ _ _ _ _ _ _ _ _) in H2.
  assert (Edt : l_deb s2 = DTop 0) by (cbn; by rewrite Ed1).
  (* the debouncer takes the request *)
  pose proof (Hl_deb_take s2 1000000000 (DChk 1000000000) ltac:(done) ltac:(cbn; rewrite Eq1; cbn; lia) ltac:(rewrite Edt; apply Db_take)) as H3.
  set (s3 := with_deb _ _ _) in H3.
  assert (H4 : hlstep s3 (1000000000, HDeb DCheck) (with_deb s3 (l_req s3) (DTop 1000000000))).
  { apply Hl_deb_check; [done|]. apply (Db_check threshold 1000000000 1000000000). }
  set (s4 := with_deb _ _ _) in H4.
  (* nothing to do at 2.9 s: it sleeps *)
  assert (H5 : hlstep s4 (2900000000, HDeb DIdle) (with_deb s4 (l_req s4) (DChk 1000000000))).
  { apply Hl_deb_idle; [done|cbn; rewrite Eq1; done|apply Db_idle]. }
  set (s5 := with_deb _ _ _) in H5.
  (* 64 responses meanwhile *)
  destruct (w_fill 3000000000 mid s5 (remove string_dec a rem0)) as (tr6&s6&rem6&H6&F6&El6&Er6&Eo6&Hin6&Hd6&Eq6&Ed6); try done.
  { intros h Hh. apply elem_of_list_In, in_in_remove; [|apply elem_of_list_In, Hin0; right; apply elem_of_app; by left].
    intros ->. done. }
  { cbn. rewrite Eq1. done. }
  { rewrite Hmid. cbn. rewrite Eq1. cbn. lia. }
  assert (Eq6' : l_req s6 = 64). { rewrite Eq6, Hmid. cbn. rewrite Eq1. done. }
  (* and one more *)
  destruct (w_take 3000000000 s6 b rem6) as (tr7&s7&H7&F7&El7&Er7&Eo7&Hd7&Eq7&Ed7); try done.
  { apply Hin6; [|intros Hb; eapply Hmb; [done|by left]].
    apply elem_of_list_In, in_in_remove; [|apply elem_of_list_In, Hin0; right; apply elem_of_app; right; by left].
    intros ->. apply Hab. by left. }
  (* it wakes up at 3.2 s *)
  assert (Edb : l_deb s7 = DChk 1000000000) by (by rewrite Ed7, Ed6).
  assert (H8 : hlstep s7 (3200000000, HDeb DCheck) (with_deb s7 (l_req s7) (DSnd 1000000000))).
  { apply Hl_deb_check; [by rewrite El7|]. rewrite Edb. apply (Db_check threshold 1000000000 3200000000). }
  assert (Hq : ∀ t l, Forall (w_label t) l → Forall (λ x, x.1 = t) l ∧ Forall quiet l).
  { intros t l Hf. split; (eapply Forall_impl; [exact Hf|]); intros x Hx; apply Hx. }
  apply Hq in F1 as [F1 Q1], F6 as [F6 Q6], F7 as [F7 Q7].
  eexists ((((([] ++ tr1 ++ [(1000000000, HReq); (1000000000, HDeb DTake); (1000000000, HDeb DCheck)]) ++ [(2900000000, HDeb DIdle)])
            ++ tr6 ++ tr7) ++ [(3200000000, HDeb DCheck)])), _. split; [|split; [|split]].
  - destruct (clock_const_app [] 1000000000 (tr1 ++ [(1000000000, HReq); (1000000000, HDeb DTake); (1000000000, HDeb DCheck)])) as [C1 L1].
    { split; [constructor|]. intros ? Hx. by apply elem_of_nil in Hx. } { intros ? Hx. by apply elem_of_nil in Hx. } { lia. }
    { apply Forall_app. split; [done|]. repeat constructor. }
    destruct (clock_const_app _ 2900000000 [(2900000000, HDeb DIdle)] C1) as [C2 L2]; [intros u Hu; apply L1 in Hu; lia|lia|by repeat constructor|].
    destruct (clock_const_app _ 3000000000 (tr6 ++ tr7) C2) as [C3 L3]; [intros u Hu; apply L2 in Hu; lia|lia|apply Forall_app; split; [exact F6|exact F7]|].
    destruct (clock_const_app _ 3200000000 [(3200000000, HDeb DCheck)] C3) as [C4 L4]; [intros u Hu; apply L3 in Hu; lia|lia|by repeat constructor|].
    exact C4.
  - cbn [app]. rewrite <-!app_assoc. apply hlsteps_app. exists s1. split; [exact H1|]. cbn [app].
    econstructor; [exact H2|]. econstructor; [exact H3|]. econstructor; [exact H4|]. econstructor; [exact H5|].
    apply hlsteps_app. exists s6. split; [exact H6|]. apply hlsteps_app. exists s7. split; [exact H7|]. apply hlsteps_one. exact H8.
  - cbn [app]. rewrite !Forall_app. repeat split; try done; repeat constructor.
  - split; [done|]. split; [cbn; lia|]. by eexists.
Qed.

(** ** A handler racing with Stop *)
Lemma hl_norm s a s' n tr s'' : hlstep s a s' → s' = n → hlsteps n tr s'' → hlsteps s (a :: tr) s''.
Proof. intros H1 <- H2. by econstructor. Qed.
#[local] Arguments hd_init : simpl never.
#[local] Arguments hosts_of : simpl never.
Definition race : list (Z * hact) :=
  [(1, HCall 1 QIntervals); (2, HStop 2); (3, HStopTake 2); (4, HStopRet 2); (5, HQueue 1 QIntervals)].
Lemma race_runs : ∃ s, hlsteps (hl_init ["h:1"]) race s ∧ l_loop s = AGone ∧ l_req s = 0 ∧ l_pass s = [] ∧ l_deb s = DTop 0.
Proof.
  eexists. split.
  - unfold race. eapply hl_norm.
    { apply Hl_call; [done|done|]. repeat split; try done; cbn; intros; by apply not_elem_of_nil. } { cbn. reflexivity. }
    eapply hl_norm. { apply Hl_stop; [done|]. split; by apply not_elem_of_nil. } { cbn. reflexivity. }
    eapply hl_norm. { apply Hl_stop_take; [done|]. left. } { cbn. reflexivity. }
    eapply hl_norm. { apply Hl_stop_ret; [done|]. left. } { cbn. reflexivity. }
    eapply hl_norm. { by apply (Hl_queue_i _ _ _ [] []). } { cbn. reflexivity. }
    constructor.
  - done.
Qed.
Definition twice : list (Z * hact) := [(1, HStop 1); (2, HStopTake 1); (3, HStopRet 1); (4, HStop 2)].
Lemma twice_runs : ∃ s, hlsteps (hl_init ["h:1"]) twice s ∧ l_loop s = AGone ∧ l_req s = 0 ∧ l_pass s = [] ∧ l_deb s = DTop 0.
Proof.
  eexists. split.
  - unfold twice. eapply hl_norm. { apply Hl_stop; [done|]. split; by apply not_elem_of_nil. } { cbn. reflexivity. }
    eapply hl_norm. { apply Hl_stop_take; [done|]. left. } { cbn. reflexivity. }
    eapply hl_norm. { apply Hl_stop_ret; [done|]. left. } { cbn. reflexivity. }
    eapply hl_norm. { apply Hl_stop; [done|]. split; cbn; by apply not_elem_of_nil. } { cbn. reflexivity. }
    constructor.
  - done.
Qed.

(** ** An ordinary run: a round of one host, a handler, a trigger *)
Definition deb_example : list (Z * dact) :=
  [(1000000000, DTake); (1000000000, DCheck); (1500000000, DTake); (1500000000, DCheck);
   (4000000000, DIdle); (4000000000, DCheck); (4000000001, DSent);
   (5000000000, DTake); (5000000000, DCheck); (8000000000, DIdle); (8000000000, DCheck); (8000000000, DSent)].
Lemma deb_example_runs : dsteps threshold (DTop 0) deb_example (DTop 0).
Proof.
  unfold deb_example.
  econstructor; [apply Db_take|]. econstructor; [apply Db_check|]. econstructor; [apply Db_take|]. econstructor; [apply Db_check|].
  econstructor; [apply Db_idle|]. econstructor; [apply Db_check|]. econstructor; [apply Db_sent|].
  econstructor; [apply Db_take|]. econstructor; [apply Db_check|]. econstructor; [apply Db_idle|]. econstructor; [apply Db_check|].
  econstructor; [apply Db_sent|]. constructor.
Qed.
Lemma deb_example_clock : clock_runs deb_example.
Proof.
  split.
  - cbn. repeat (constructor; [|repeat constructor; lia]). constructor.
  - intros t Ht. cbn in Ht. repeat (apply elem_of_cons in Ht as [->|Ht]; [lia|]). by apply elem_of_nil in Ht.
Qed.

Definition normal_prefix : list (Z * hact) :=
  [(1, HPush 0 (w_resp "h:1")); (2, HTakeResp 0 (w_resp "h:1") 2 2); (3, HCall 7 QHosts); (4, HReq); (5, HPushNil 0);
   (6, HDeb DTake); (7, HDeb DCheck); (8, HQueue 7 QHosts)].
Lemma normal_runs : ∃ o1 l o2 a s, hlsteps (hl_init ["h:1"])
  (normal_prefix ++ [(9, HTakeNil 0 o1); (10, HTakeH 7 l); (11, HRet 7 a);
     (3000000000, HDeb DIdle); (3000000000, HDeb DCheck); (3000000001, HFire o2)]) s ∧ l_loop s = ASel.
Proof.
  eexists _, _, _, _, _. split.
  - unfold normal_prefix. cbn [app].
    eapply hl_norm. { apply (Hl_push _ _ _ ["h:1"]); [done|done|left|done]. } { vm_compute. reflexivity. }
    eapply hl_norm. { by apply (Hl_take_resp _ _ _ _ []). } { vm_compute. reflexivity. }
    eapply hl_norm. { apply Hl_call; [done|done|]. repeat split; try done; cbn; intros; by apply not_elem_of_nil. } { vm_compute. reflexivity. }
    eapply hl_norm. { by apply Hl_req. } { vm_compute. reflexivity. }
    eapply hl_norm. { by apply Hl_push_nil. } { vm_compute. reflexivity. }
    eapply hl_norm. { apply Hl_deb_take; [done|done|apply Db_take]. } { vm_compute. reflexivity. }
    eapply hl_norm. { apply Hl_deb_check; [done|apply Db_check]. } { vm_compute. reflexivity. }
    eapply hl_norm. { by apply (Hl_queue_h _ _ _ [] []). } { vm_compute. reflexivity. }
    eapply hl_norm. { apply (Hl_take_nil _ _ _ []); [done|done|apply the_order_ok]. } { vm_compute. reflexivity. }
    eapply hl_norm. { by apply (Hl_take_h _ _ _ []). } { vm_compute. reflexivity. }
    eapply hl_norm. { by apply Hl_ret_h. } { vm_compute. reflexivity. }
    eapply hl_norm. { apply Hl_deb_idle; [done|done|apply Db_idle]. } { vm_compute. reflexivity. }
    eapply hl_norm. { apply Hl_deb_check; [done|apply Db_check]. } { vm_compute. reflexivity. }
    eapply hl_norm. { apply Hl_fire; [done|apply Db_sent|apply the_order_ok]. } { vm_compute. reflexivity. }
    constructor.
  - vm_compute. done.
Qed.

(** ** Progress *)
Lemma not_stopped hosts tr s : hlsteps (hl_init hosts) tr s → ¬ stop_taken tr → l_loop s ≠ ACrash → running s.
Proof.
  intros H Hs Hc. apply stop_taken_loop in H. split; [|split]; [intros E; apply Hs, H; by left|intros E; apply Hs, H; by right|done].
Qed.
Lemma room hosts tr s : hlsteps (hl_init hosts) tr s → taken_since_idle tr < 64 → l_loop s = AReq → l_req s < 64.
Proof. intros H Ht E. apply req_bound in H as [_ Hb]. rewrite E in Hb. cbn in Hb. lia. Qed.
Lemma thm_trigger_taken hosts tr s t : hlsteps (hl_init hosts) tr s → ¬ stop_taken tr → l_loop s ≠ ACrash → taken_since_idle tr < 64 →
  (∃ o, l_deb s = DSnd o) → ∃ tr' o s', hlsteps s (tr' ++ [(t, HFire o)]) s' ∧ Forall (λ a, a.1 = t ∧ internal a.2) tr'.
Proof.
  intros H Hs Hc Ht [o Ho]. destruct (to_select t s) as (tr0&s0&[H0 F0]&E0&(_&_&_&_&Ed)&_&_).
  { by eapply not_stopped. } { by eapply room. }
  eexists tr0, (the_order (l_hd s0)), _. split; [|done]. apply hlsteps_snoc. exists s0. split; [done|].
  eapply Hl_fire; [done|rewrite Ed, Ho; apply Db_sent|apply the_order_ok].
Qed.
Lemma thm_request_taken hosts tr s t o : hlsteps (hl_init hosts) tr s → l_loop s = AReq →
  l_deb s = DTop o ∨ (l_deb s = DChk o ∧ (o = 0 ∨ t - o ≤ threshold)) →
  ∃ tr' s', hlsteps s (tr' ++ [(t, HReq)]) s' ∧ Forall (λ a, a.1 = t ∧ ∃ d, a.2 = HDeb d) tr'.
Proof.
  intros H El Hd. pose proof (req_bound _ _ _ H) as [[Hb1 Hb2] _].
  assert (Hfin : ∀ s1 o1, l_loop s1 = AReq → 0 ≤ l_req s1 ≤ 64 → l_deb s1 = DTop o1 →
    ∃ tr' s', hlsteps s1 (tr' ++ [(t, HReq)]) s' ∧ Forall (λ a, a.1 = t ∧ ∃ d, a.2 = HDeb d) tr').
  { intros s1 o1 El1 Hb Ed1. destruct (decide (l_req s1 < 64)) as [Hlt|Hge].
    - eexists [], _. split; [|constructor]. apply hlsteps_one. by apply Hl_req.
    - assert (Eq : l_req s1 = 64) by lia.
      pose proof (Hl_deb_take s1 t _ ltac:(by rewrite El1) ltac:(lia) ltac:(rewrite Ed1; apply Db_take)) as H1.
      set (s2 := with_deb _ _ _) in H1.
      eexists [(t, HDeb DTake)], _. split; [|constructor; [|constructor]; split; [done|by eexists]].
      econstructor; [exact H1|]. apply hlsteps_one. apply Hl_req; [done|]. cbn. unfold req_cap. lia. }
  destruct Hd as [Hd|[Hd Ho]]; [by eapply Hfin|].
  pose proof (Hl_deb_check s t _ ltac:(by rewrite El) ltac:(rewrite Hd; apply Db_check)) as H1.
  assert (E : negb (o =? 0) && (threshold <? since_oldest t o) = false).
  { destruct Ho as [->|Ho]; [done|]. unfold since_oldest. rewrite since_spec by (unfold threshold; lia).
    destruct (o =? 0); [done|]. cbn. apply Z.ltb_ge. lia. }
  rewrite E in H1. set (s2 := with_deb _ _ _) in H1.
  destruct (Hfin s2 o) as (tr'&s'&H2&F2); [done|done|done|].
  exists ((t, HDeb DCheck) :: tr'), s'. split; [by econstructor|]. constructor; [split; [done|by eexists]|done].
Qed.
Lemma thm_served hosts tr s i q t : hlsteps (hl_init hosts) tr s → open_call i tr = Some q →
  ¬ stop_taken tr → l_loop s ≠ ACrash → taken_since_idle tr < 64 →
  ∃ tr' a s', hlsteps s (tr' ++ [(t, HRet i a)]) s' ∧ Forall (λ x, x.1 = t ∧ internal x.2) tr'.
Proof.
  intros H Ho Hs Hc Ht. destruct (serve t s i q) as (tr'&a&s'&H1&F1).
  { by eapply not_stopped. } { by eapply room. } { by eapply calls_inv. }
  exists tr', a, s'. split; [done|]. by apply Forall_app in F1 as [F1 _].
Qed.

(** ** Witnesses *)
Lemma thm_deadlock : ∃ hosts tr s, length hosts = 66%nat ∧ clock_runs tr ∧
  hlsteps (hl_init hosts) tr s ∧ (∀ t now, (t, HTick now) ∉ tr) ∧ (∀ t k r t1 t2, (t, HTakeResp k r t1 t2) ∈ tr → usable r) ∧
  ∀ tr' s', hlsteps s tr' s' → l_loop s' = AReq ∧ ops tr' = [] ∧ (∀ t i a, (t, HRet i a) ∉ tr') ∧ ∀ t i, (t, HStopRet i) ∉ tr'.
Proof.
  destruct deadlock as (tr&s&Hc&H&Hq&Hw). exists w_hosts, tr, s. rewrite Forall_forall in Hq.
  split; [done|]. split; [done|]. split; [done|].
  split; [intros t now Hin; by apply Hq in Hin|]. split; [intros t k r t1 t2 Hin; by apply Hq in Hin|].
  intros tr' s' H'. split; [by eapply wedged_forever|by eapply wedged_stuck].
Qed.
Lemma thm_handler_hangs : ∃ tr s, hlsteps (hl_init ["h:1"]) tr s ∧ open_call 1 tr = Some QIntervals ∧
  ∀ tr' s' t a, hlsteps s tr' s' → (t, HRet 1 a) ∉ tr'.
Proof.
  destruct race_runs as (s&H&E&_). exists race, s. split; [done|]. split; [done|].
  intros tr' s' t a H'. eapply gone_forever in H' as (_&_&_&Hn&_); done.
Qed.
Lemma thm_second_stop : ∃ tr s t, hlsteps (hl_init ["h:1"]) (tr ++ [(t, HStop 2)]) s ∧
  ∀ tr' s' t', hlsteps s tr' s' → (t', HStopRet 2) ∉ tr'.
Proof.
  destruct twice_runs as (s&H&E&_). exists (take 3 twice), s, 4. split; [done|].
  intros tr' s' t H'. eapply gone_forever in H' as (_&_&_&_&Hn); done.
Qed.
Lemma answer_example : ∃ o l a s m, hlsteps (hl_init ["h:1"]) (normal_prefix ++ [(9, HTakeNil 0 o); (10, HTakeH 7 l)] ++ [(11, HRet 7 (AnsH a))]) s ∧
  hrun (hd_init ["h:1"]) [HResp (w_resp "h:1") 2 2; HRecalc o] (Ok m) ∧ map hs_hp a = ["h:1"].
Proof.
  destruct normal_runs as (o1&l&o2&a&s&H&E). exists o1, l.
  change (normal_prefix ++ [(9, HTakeNil 0 o1); (10, HTakeH 7 l); (11, HRet 7 a); (3000000000, HDeb DIdle); (3000000000, HDeb DCheck); (3000000001, HFire o2)])
    with (((normal_prefix ++ [(9, HTakeNil 0 o1); (10, HTakeH 7 l)]) ++ [(11, HRet 7 a)]) ++ [(3000000000, HDeb DIdle); (3000000000, HDeb DCheck); (3000000001, HFire o2)]) in H.
  apply hlsteps_app in H as (m&H1&_).
  pose proof (thm_answer _ _ _ _ _ _ H1) as (q&d&Eq&Hr&Ha). cbn in Eq. injection Eq as <-. destruct Ha as (l'&Hl&->).
  exists (map snd l'), m, d. split; [by rewrite <-app_assoc in H1|]. split; [done|].
  assert (Hst := status_reach ["h:1"] _ d Hr).
  assert (Hd := hosts_of_perm _ _ _ Hr). unfold hosts_of in Hd. rewrite <-Hl in Hd.
  change (remove_dups ["h:1"]) with ["h:1"] in Hd.
  apply Permutation_singleton_r in Hd. destruct l' as [|[k v] [|]]; try done. cbn in Hd. injection Hd as ->. cbn.
  assert (Hk : hd_status d !! "h:1" = Some v). { apply elem_of_map_to_list. rewrite <-Hl. left. }
  assert (Hcs : clock_set (ops (normal_prefix ++ [(9, HTakeNil 0 o1); (10, HTakeH 7 l)]))).
  { intros r t1 t2 Hin. cbn in Hin. apply elem_of_cons in Hin as [[= -> -> ->]|Hin]; [done|].
    apply elem_of_list_singleton in Hin. done. }
  specialize (Hst Hcs "h:1"). rewrite Hk in Hst. destruct Hst as [_ [Hs _]]. by rewrite Hs.
Qed.
