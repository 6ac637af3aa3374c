(** * healthd asks a process again and again, healthtop shows what it answers (C131) *)
From Verif Require Import PFair PHealthd PHealthdEx PHealthdLoop PHealthdLoopEx PApi PApiEx PContent PWire PWire2 PWireEx PTopTable PLiveTop PLivePolls SLive10.
From Verif Require Import PLiveWholeEx1.

Local Definition tm (n : nat) : Z := 3000000000 * (Z.of_nat n + 1).
Local Definition hp : string := "h:1".

Section Asking.
Context (R : resp) (h0 h1 h2 : MHealthd.hd) (o1 o2 : rorder) (now : hkey → Z).
Context (HR : r_hp R = hp) (H0 : h0 = hd_init [hp]) (C0 : consume h0 R 1000 1001 = Ok h1) (C1 : consume h2 R 1000 1001 = Ok h2).
Context (Ho1 : rorder_ok h1 o1) (F1 : recalc h1 o1 = Ok h2) (Ho2 : rorder_ok h2 o2) (F2 : recalc h2 o2 = Ok h2) (Hp : purge h2 now = Ok h2) (Hh : hosts_of h2 = [hp]) (Hh0 : hosts_of h0 = [hp]).
Local Definition hc (c : nat) : MHealthd.hd := match c with O => h0 | S _ => h2 end.
Local Definition hm (c : nat) : MHealthd.hd := match c with O => h1 | S _ => h2 end.
Local Definition oc (c : nat) : rorder := match c with O => o1 | S _ => o2 end.
Local Definition none (c : nat) : list (option (list string)) := replicate c None.
Local Definition st h lp q req d rounds calls iq : hl := HL h lp q req d rounds calls iq [] false [] [].
Definition q_at (n : nat) : hl :=
  let '(c, r) := ru n in
  match r with
  | 0 | 1 | 2 | 3 | 4 | 5 | 6 => st (hc c) ASel [] 0 (DTop 0) (none c ++ [Some [hp]]) [] []
  | 7 => st (hc c) ASel [(c, Some R)] 0 (DTop 0) (none c ++ [Some []]) [] []
  | 8 => st (hm c) AReq [] 0 (DTop 0) (none c ++ [Some []]) [] []
  | 9 => st (hm c) ASel [] 1 (DTop 0) (none c ++ [Some []]) [] []
  | 10 => st (hm c) ASel [] 0 (DChk (tm (n - 1))) (none c ++ [Some []]) [] []
  | 11 => st (hm c) ASel [] 0 (DSnd (tm (n - 2))) (none c ++ [Some []]) [] []
  | 12 => st h2 ASel [] 0 (DTop 0) (none c ++ [Some []]) [] []
  | 13 => st h2 ASel [(c, None)] 0 (DTop 0) (none c ++ [None]) [] []
  | 14 => st h2 ASel [] 0 (DTop 0) (none c ++ [None]) [] []
  | 15 => st h2 ASel [] 0 (DTop 0) (none c ++ [None]) [(5%nat, QIntervals)] []
  | 16 => st h2 ASel [] 0 (DTop 0) (none c ++ [None]) [] [5%nat]
  | 17 => st h2 (AReplyI 5 (safe_intervals h2)) [] 0 (DTop 0) (none c ++ [None]) [] []
  | _ => st h2 ASel [] 0 (DTop 0) (none c ++ [None]) [] []
  end%nat.
Local Definition q_hact (n : nat) : option hact :=
  let '(c, r) := ru n in
  match r with
  | 0 | 1 | 2 | 3 | 4 | 5 => None
  | 6 => Some (HPush c R) | 7 => Some (HTakeResp c R 1000 1001) | 8 => Some HReq | 9 => Some (HDeb DTake) | 10 => Some (HDeb DCheck)
  | 11 => Some (HFire (oc c)) | 12 => Some (HPushNil c) | 13 => Some (HTakeNil c o2)
  | 14 => Some (HCall 5 QIntervals) | 15 => Some (HQueue 5 QIntervals) | 16 => Some (HTakeI 5) | 17 => Some (HRet 5 (AnsI (hd_pub h2))) | _ => Some (HTick now)
  end%nat.
Local Definition q_act (n : nat) : option (Z * hact) := match q_hact n with Some a => Some (tm n, a) | None => None end.
Definition q_x : exec hl (Z * hact) := Exec q_at q_act.

Local Lemma last_round c (p q : option (list string)) : (none c ++ [p]) !! c = Some p ∧ <[c := q]> (none c ++ [p]) = none c ++ [q].
Proof using.
  unfold none. split; [apply list_lookup_middle; by rewrite replicate_length|].
  rewrite insert_app_r_alt by (by rewrite replicate_length). by rewrite replicate_length, Nat.sub_diag.
Qed.
Local Lemma none_S c : none (S c) = none c ++ [None].
Proof using. unfold none. by rewrite replicate_S_end. Qed.

Lemma q_step : is_exec hlstep q_x.
Proof using All.
  intros n. cbn [x_at x_act q_x]. unfold q_act, q_hact, q_at. rewrite ru_S. pose proof (ru_lt n) as Hlt. destruct (ru n) as [c r] eqn:En. cbn [snd] in Hlt.
  do 19 (try destruct r as [|r]); try done; [..|lia]; cbn [fst snd].
  - destruct (last_round c (Some [hp]) (Some [])) as [L1 L2]. pose proof (Hl_push (st (hc c) ASel [] 0 (DTop 0) (none c ++ [Some [hp]]) [] []) (tm n) c [hp] R) as H. rewrite HR in H.
    unfold with_queue in H. cbn [l_rounds l_resp l_hd l_loop l_req l_deb l_pass l_iq l_hq l_flag l_stop l_bye st] in H.
    change (remove string_dec hp [hp]) with (@nil string) in H. rewrite L2 in H. apply H; [done|done|by left|done].
  - pose proof (Hl_take_resp (st (hc c) ASel [(c, Some R)] 0 (DTop 0) (none c ++ [Some []]) [] []) (tm n) c R [] 1000 1001 eq_refl eq_refl) as H. cbn [l_hd st] in H.
    assert (E : consume (hc c) R 1000 1001 = Ok (hm c)) by (by destruct c). rewrite E in H. exact H.
  - apply (Hl_req (st (hm c) AReq [] 0 (DTop 0) (none c ++ [Some []]) [] []) (tm n)); done.
  - replace (S n - 1)%nat with n by lia. apply (Hl_deb_take (st (hm c) ASel [] 1 (DTop 0) (none c ++ [Some []]) [] []) (tm n) (DChk (tm n))); [done|done|]. apply (Db_take threshold 0 (tm n)).
  - destruct n as [|n]; [done|]. replace (S (S n) - 2)%nat with n by lia. replace (S n - 1)%nat with n by lia.
    apply (Hl_deb_check (st (hm c) ASel [] 0 (DChk (tm n)) (none c ++ [Some []]) [] []) (tm (S n)) (DSnd (tm n))); [done|].
    assert (E : negb (tm n =? 0) && (threshold <? since_oldest (tm (S n)) (tm n)) = true).
    { assert (tm n ≠ 0) by (unfold tm; lia). apply andb_true_iff. split; [apply negb_true_iff; by apply Z.eqb_neq|]. apply Z.ltb_lt.
      replace (tm (S n)) with (tm n + 3000000000) by (unfold tm; lia). unfold since_oldest, since. replace (tm n + 3000000000 - tm n) with 3000000000 by lia. by vm_compute. }
    pose proof (Db_check threshold (tm n) (tm (S n))) as H. rewrite E in H. exact H.
  - assert (Ho : rorder_ok (hm c) (oc c)) by (by destruct c). assert (E : recalc (hm c) (oc c) = Ok h2) by (by destruct c).
    pose proof (Hl_fire (st (hm c) ASel [] 0 (DSnd (tm (n - 2))) (none c ++ [Some []]) [] []) (tm n) (oc c) (DTop 0) eq_refl (Db_sent threshold (tm (n - 2)) (tm n)) Ho) as H.
    cbn [l_hd st] in H. rewrite E in H. exact H.
  - destruct (last_round c (Some []) None) as [L1 L2]. pose proof (Hl_push_nil (st h2 ASel [] 0 (DTop 0) (none c ++ [Some []]) [] []) (tm n) c) as H.
    unfold with_queue in H. cbn [l_rounds l_resp l_hd l_loop l_req l_deb l_pass l_iq l_hq l_flag l_stop l_bye st] in H. rewrite L2 in H. apply H; done.
  - pose proof (Hl_take_nil (st h2 ASel [(c, None)] 0 (DTop 0) (none c ++ [None]) [] []) (tm n) c [] o2 eq_refl eq_refl Ho2) as H. cbn [l_hd st] in H. rewrite F2 in H. exact H.
  - apply (Hl_call (st h2 ASel [] 0 (DTop 0) (none c ++ [None]) [] []) (tm n) 5 QIntervals); [done|done|]. unfold l_idle. cbn. split; [intros q; apply not_elem_of_nil|]. repeat split; try apply not_elem_of_nil; done.
  - apply (Hl_queue_i (st h2 ASel [] 0 (DTop 0) (none c ++ [None]) [(5%nat, QIntervals)] []) (tm n) 5 [] []); done.
  - apply (Hl_take_i (st h2 ASel [] 0 (DTop 0) (none c ++ [None]) [] [5%nat]) (tm n) 5 []); done.
  - apply (Hl_ret_i (st h2 (AReplyI 5 (safe_intervals h2)) [] 0 (DTop 0) (none c ++ [None]) [] []) (tm n) 5 (safe_intervals h2)); done.
  - pose proof (Hl_tick (st h2 ASel [] 0 (DTop 0) (none c ++ [None]) [] []) (tm n) now eq_refl) as H. cbn [l_hd st] in H. rewrite Hp in H. rewrite none_S, <- Hh. exact H.
Qed.

(** what never is possible *)
Local Lemma steady n ac s' : hlstep (q_at n) ac s' →
  match ac.2 with HTakeH _ _ | HStopTake _ | HStopRet _ => False | HQueue i _ => i = 5%nat | HPush k _ => ((ru n).1 ≤ k)%nat | _ => True end.
Proof using.
  intros St. unfold q_at in St. destruct (ru n) as [c r] eqn:En. cbn [fst].
  assert (Hgen : ∀ h lp q req d p calls hq, (calls = [] ∨ calls = [(5%nat, QIntervals)]) → lp ≠ ABye →
    hlstep (st h lp q req d (none c ++ [p]) calls hq) ac s' →
    match ac.2 with HTakeH _ _ | HStopTake _ | HStopRet _ => False | HQueue i _ => i = 5%nat | HPush k _ => (c ≤ k)%nat | _ => True end).
  { clear. intros h lp q req d p calls hq Hc Hlp St. remember (st _ _ _ _ _ _ _ _) as s eqn:E.
    destruct St as [|? ? k rem ? El Hk Hin| |? ? ? ? ? ? ? El Eq|? ? ? ? ? El Eq|? ? El| | | |? ? ? ? El Hs| | |? ? ? p1 ? El Ep|? ? ? p1 ? El Ep|? ? ? ? El Ei|? ? ? ? ? El Ei|? ? ? ? El|? ? ? ? El| |? ? ? El Hi|? ? ? El]; subst s; cbn in *; try exact I.
    - destruct (decide (c ≤ k)%nat) as [|Hlt]; [done|]. unfold none in Hk. rewrite lookup_app_l in Hk by (rewrite replicate_length; lia).
      apply lookup_replicate in Hk as [? _]. done.
    - destruct Hc as [-> | ->]; [by destruct p1|]. destruct p1 as [|? [|]]; by inversion Ep.
    - destruct Hc as [-> | ->]; [by destruct p1|]. destruct p1 as [|? [|]]; by inversion Ep.
    - discriminate Ei.
    - by apply not_elem_of_nil in Hi.
    - done. }
  do 19 (try destruct r as [|r]); (eapply Hgen; [| |exact St]); try done; auto.
Qed.
Lemma asking_again : healthd_exec ["h:1"] q_x ∧ healthd_fair q_x ∧ asks_fair q_x ∧ never (is_act is_stop) q_x ∧ time_passes q_x.
Proof using All.
  assert (Hloop : ∀ n, match l_loop (q_at n) with ACrash => False | AReq => l_req (q_at n) = 0 | _ => True end).
  { intros n. unfold q_at. destruct (ru n) as [c r]. by do 19 (try destruct r as [|r]). }
  assert (Hs : ∀ Q : hact → Prop, (∀ n t ac s', hlstep (q_at n) (t, ac) s' → ¬ Q ac) → strongly_fair hlstep (is_act Q) q_x).
  { intros Q Ha. apply (strong_impossible _ _ _ 0). intros n _ ([t ac]&s'&Hp'&Hst). exact (Ha n t ac s' Hst Hp'). }
  assert (Hw : ∀ Q : hact → Prop, (∀ n t ac s', hlstep (q_at n) (t, ac) s' → ¬ Q ac) → weakly_fair hlstep (is_act Q) q_x).
  { intros Q Ha. apply weak_impossible. intros n. exists n. split; [lia|]. intros ([t ac]&s'&Hp'&Hst). exact (Ha n t ac s' Hst Hp'). }
  assert (Hh' : ∀ (Q : hact → Prop) r, (r < 19)%nat → (∀ k, (ru k).2 = r → match q_hact k with Some a => Q a | None => False end) → ∀ n, ∃ m, (n ≤ m)%nat ∧ happens (is_act Q) q_x m).
  { intros Q r Hr Hq n. destruct (ru_again n r Hr) as (k&Hk&Er). exists k. split; [done|]. specialize (Hq k Er). unfold happens. cbn [x_act q_x]. unfold q_act. destruct (q_hact k) as [a|]; [|done].
    eexists. split; [reflexivity|]. exact Hq. }
  split; [|split; [|split; [|split]]].
  - constructor; [exact q_step| | |].
    + cbn. unfold q_at. cbn. unfold hl_init. change (hd_init ["h:1"]) with (hd_init [hp]). rewrite <- H0, Hh0. done.
    + intros n E. specialize (Hloop n). change (x_at q_x n) with (q_at n) in E. by rewrite E in Hloop.
    + intros n (El&Er&_). specialize (Hloop n). change (x_at q_x n) with (q_at n) in El, Er. by rewrite El, Er in Hloop.
  - constructor.
    + apply strong_happens. apply (Hh' _ 7%nat); [lia|]. intros k E. unfold q_hact. destruct (ru k) as [c r]. cbn in E. by subst r.
    + apply strong_happens. apply (Hh' _ 16%nat); [lia|]. intros k E. unfold q_hact. destruct (ru k) as [c r]. cbn in E. by subst r.
    + apply Hs. intros n t ac s' St Hq. apply steady in St. cbn in St. by destruct ac.
    + apply strong_happens. apply (Hh' _ 11%nat); [lia|]. intros k E. unfold q_hact. destruct (ru k) as [c r]. cbn in E. by subst r.
    + apply Hs. intros n t ac s' St Hq. apply steady in St. cbn in St. by destruct ac.
    + intros i. destruct (decide (i = 5%nat)) as [->|Hne].
      * apply strong_happens. apply (Hh' _ 15%nat); [lia|]. intros k E. unfold q_hact. destruct (ru k) as [c r]. cbn in E. by subst r.
      * apply Hs. intros n t ac s' St Hq. apply steady in St. cbn in St. destruct ac; try done. cbn in Hq. congruence.
    + apply weak_happens. apply (Hh' _ 8%nat); [lia|]. intros k E. unfold q_hact. destruct (ru k) as [c r]. cbn in E. by subst r.
    + apply weak_happens. apply (Hh' _ 17%nat); [lia|]. intros k E. unfold q_hact. destruct (ru k) as [c r]. cbn in E. by subst r.
    + apply weak_happens. apply (Hh' _ 9%nat); [lia|]. intros k E. unfold q_hact. destruct (ru k) as [c r]. cbn in E. by subst r.
    + apply Hw. intros n t ac s' St Hq. apply steady in St. cbn in St. by destruct ac.
  - constructor.
    + apply strong_happens. apply (Hh' _ 18%nat); [lia|]. intros k E. unfold q_hact. destruct (ru k) as [c r]. cbn in E. by subst r.
    + intros k h. apply (strong_impossible _ _ _ (S k * 19)%nat). intros n Hn ([t ac]&s'&Hp'&St). change (x_at q_x n) with (q_at n) in St. apply steady in St. cbn in St.
      unfold is_act in Hp'. cbn in Hp'. destruct ac; try done. destruct Hp' as [-> _]. pose proof (ru_le n (S k * 19) Hn) as Hle. rewrite ru_round in Hle. cbn in Hle. lia.
  - intros n ([t ac]&E&Hq). cbn [x_act q_x] in E. unfold q_act, q_hact in E. unfold is_act in Hq. destruct (ru n) as [c r]. do 19 (try destruct r as [|r]); simplify_eq; done.
  - assert (Ht : ∀ n t ac, x_act q_x n = Some (t, ac) → t = tm n). { intros n t ac E. cbn [x_act q_x] in E. unfold q_act in E. destruct (q_hact n); by simplify_eq. }
    split.
    + intros n t ac ->%Ht. unfold tm. lia.
    + intros T. exists (Z.to_nat T). intros n t ac Hn ->%Ht. unfold tm. lia.
Qed.
Lemma q_rounds n : rounds_before q_x n = S (ru n).1.
Proof using.
  induction n as [|n IH]; [done|]. unfold rounds_before in *. rewrite acts_S, omap_app, app_length, ru_S. cbn [x_act q_x]. unfold q_act, q_hact.
  pose proof (ru_lt n) as Hl. destruct (ru n) as [c r]. cbn [fst snd] in *. do 19 (try destruct r as [|r]); try lia; cbn in *; lia.
Qed.
Definition q_ops (n : nat) : list hop :=
  let '(c, r) := ru n in
  match r with 7 => [HResp R 1000 1001] | 11 => [HRecalc (oc c)] | 13 => [HRecalc o2] | 18 => [HPurge now] | _ => [] end%nat.
Lemma q_ops_S n : ops (acts q_x (S n)) = ops (acts q_x n) ++ q_ops n.
Proof using.
  rewrite acts_S. unfold ops. rewrite omap_app. f_equal. cbn [x_act q_x]. unfold q_act, q_hact, q_ops.
  pose proof (ru_lt n) as Hl. destruct (ru n) as [c r]. cbn [snd] in Hl. do 19 (try destruct r as [|r]); try lia; done.
Qed.
Lemma q_pub n : hd_pub (l_hd (q_at n)) = hd_pub h0 ∨ hd_pub (l_hd (q_at n)) = hd_pub h1 ∨ hd_pub (l_hd (q_at n)) = hd_pub h2.
Proof using. unfold q_at. destruct (ru n) as [c r]. do 19 (try destruct r as [|r]); destruct c as [|c]; auto. Qed.
Lemma q_takes n t k0 r t1 t2 : x_act q_x n = Some (t, HTakeResp k0 r t1 t2) → ru n = (k0, 7%nat) ∧ r = R.
Proof using.
  intros E. cbn [x_act q_x] in E. unfold q_act, q_hact in E. destruct (ru n) as [c j]. clear -E. do 19 (try destruct j as [|j]); by simplify_eq.
Qed.

(** healthtop: its first request is never answered, the others one by one *)
Context (a : list ajob).
Local Definition t_top (c : nat) : MTop.top (list ajob) := match c with O => MTop.Top None tstatus0 | S _ => MTop.Top (Some a) (TStatus 7 0 "") end.
Local Definition t_at (n : nat) : tloop (list ajob) :=
  let '(c, r) := ru n in
  TLoop (PWaiting :: replicate c PFinished ++ match r with 15 | 16 | 17 => [PWaiting] | 18 => [PSending (inl a)] | _ => [] end%nat) (t_top c).
Local Definition t_act (n : nat) : option (tlev (list ajob)) :=
  let '(c, r) := ru n in
  match r with 14 => Some LTick | 17 => Some (LAnswer (S c) (inl a)) | 18 => Some (LTake (S c) 7) | _ => None end%nat.
Definition s_x : exec (tloop (list ajob)) (tlev (list ajob)) := Exec t_at t_act.
Local Lemma last_poll c (p q : poller (list ajob)) :
  (PWaiting :: replicate c PFinished ++ [p]) !! S c = Some p ∧ <[S c := q]> (PWaiting :: replicate c PFinished ++ [p]) = PWaiting :: replicate c PFinished ++ [q].
Proof using.
  split; [change ((replicate c PFinished ++ [p]) !! c = Some p); apply list_lookup_middle; by rewrite replicate_length|].
  change (PWaiting :: <[c := q]> (replicate c PFinished ++ [p]) = PWaiting :: replicate c PFinished ++ [q]).
  rewrite insert_app_r_alt by (by rewrite replicate_length). by rewrite replicate_length, Nat.sub_diag.
Qed.
Lemma s_exec : is_exec tlstep s_x ∧ x_at s_x 0%nat = tloop0.
Proof using.
  split; [|done]. intros n. cbn [x_at x_act s_x]. unfold t_at, t_act. rewrite ru_S. pose proof (ru_lt n) as Hl'.
  destruct (ru n) as [c r]. cbn [snd] in Hl'. do 19 (try destruct r as [|r]); try lia; try done.
  - unfold tlstep, tl_step. cbn. by rewrite app_nil_r.
  - unfold tlstep, tl_step. cbn [tl_polls]. destruct (last_poll c PWaiting (PSending (inl a))) as [-> E]. by rewrite E.
  - unfold tlstep, tl_step. cbn [tl_polls]. destruct (last_poll c (PSending (inl a)) PFinished) as [-> E]. rewrite E, app_nil_r. f_equal. f_equal; [|by destruct c].
    cbn. f_equal. symmetry. apply replicate_S_end.
Qed.
Lemma s_fair : loop_fair s_x ∧ ends_or_not s_x ∧ forever (happens is_page s_x).
Proof using.
  split; [|split].
  - intros i. apply weak_impossible. intros n. exists (n * 19)%nat. split; [lia|]. intros (e&s'&(now'&->)&St). unfold tlstep, tl_step in St. cbn [x_at s_x] in St. unfold t_at in St.
    rewrite ru_round in St. cbn [tl_polls] in St. rewrite app_nil_r in St.
    destruct i as [|i]; cbn in St; [done|].
    destruct (replicate n PFinished !! i) as [p|] eqn:E; [|done]. apply lookup_replicate in E as [-> _]. done.
  - intros [|c].
    { right. intros n (e&He&(r&->)). cbn [x_act s_x] in He. unfold t_act in He. destruct (ru n) as [c k]. by do 19 (try destruct k as [|k]). }
    left. exists (17 + c * 19)%nat. eexists. split; [|by eexists]. cbn [x_act s_x]. unfold t_act. rewrite ru_in by lia. done.
  - intros n. exists (17 + n * 19)%nat. split; [lia|]. eexists. split; [|by do 2 eexists]. cbn [x_act s_x]. unfold t_act. rewrite ru_in by lia. done.
Qed.
Lemma jobs_again ff srt sort name inst height : (∀ i, top_page ff srt sort name inst (height i) (hd_pub h2) a) → top_exec ff srt sort name inst height q_x s_x.
Proof using.
  intros Hpg. destruct s_exec as [T1 T2], s_fair as (T3&T4&T5). constructor; try done. intros n i b Hb.
  cbn [x_act s_x] in Hb. unfold t_act in Hb. destruct (ru n) as [c r] eqn:E. do 17 (destruct r as [|r]; [done|]). destruct r as [|r]; [|by destruct r]. injection Hb as <- <-.
  exists n, (tm n), 5%nat, (hd_pub h2). split; [done|]. split; [|split; [|apply Hpg]].
  - rewrite <- (tl_polls_length s_x T1 T2). cbn [x_at s_x]. unfold t_at. rewrite E. cbn. rewrite app_length, replicate_length. cbn. lia.
  - cbn [x_act q_x]. unfold q_act, q_hact. rewrite E. done.
Qed.
End Asking.
