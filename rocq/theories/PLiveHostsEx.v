(** * A fair execution of healthd and healthtop in which a host does not answer (C128, C129) *)
From Verif Require Import PFair PHealthd PHealthdEx PHealthdLoop PHealthdLoopEx PApi PApiEx PContent PWire PWire2 PWireEx PTopTable PLiveTop SLive9.

Local Definition tm (n : nat) : Z := 3000000000 * (Z.of_nat n + 1).
Local Definition hp : string := "h:1".
Definition q_resp : resp := Resp hp clock (Some "connection refused") 0 12 "" 0 [].
Definition q_status : hstatus := HStatus hp clock "" 0 "connection refused" 12 0 0 0.

(** rounds of thirteen moments: number of the round, and moment in it *)
Fixpoint rq (k : nat) : nat * nat :=
  match k with
  | O => (0, 0)
  | S k => match rq k with (c, 12) => (S c, 0) | (c, r) => (c, S r) end
  end%nat.
Lemma rq_round c : rq (c * 13) = (c, 0)%nat.
Proof. induction c as [|c IH]; [done|]. change (S c * 13)%nat with (S (S (S (S (S (S (S (S (S (S (S (S (S (c * 13)))))))))))))). cbn [rq]. by rewrite IH. Qed.
Lemma rq_in c r : (r < 13)%nat → rq (r + c * 13) = (c, r).
Proof. intros Hr. assert (E := rq_round c). do 13 (destruct r as [|r]; [cbn [rq Nat.add]; by rewrite E|]). lia. Qed.
Lemma rq_lt k : ((rq k).2 < 13)%nat.
Proof. induction k as [|k IH]; [cbn; lia|]. cbn [rq]. destruct (rq k) as [c r]. cbn in IH. do 13 (destruct r as [|r]; [cbn; lia|]). lia. Qed.
Lemma rq_le k n : (n ≤ k)%nat → ((rq n).1 ≤ (rq k).1)%nat.
Proof.
  induction 1 as [|k _ IH]; [done|]. etrans; [exact IH|]. cbn [rq]. destruct (rq k) as [c r]. do 13 (try destruct r as [|r]); cbn; lia.
Qed.
Lemma rq_again n r : (r < 13)%nat → ∃ k, (n ≤ k)%nat ∧ (rq k).2 = r.
Proof. intros Hr. exists (r + n * 13)%nat. split; [lia|]. by rewrite rq_in. Qed.

Section Failing.
Context (R : resp) (h0 h1 : MHealthd.hd) (o : rorder) (now : hkey → Z) (l : list (string * hstatus)).
Context (HR : r_hp R = hp) (H0 : h0 = hd_init [hp]) (C0 : consume h0 R 1000 1001 = Ok h1) (C1 : consume h1 R 1000 1001 = Ok h1).
Context (Ho : rorder_ok h1 o) (H2 : recalc h1 o = Ok h1) (H3 : purge h1 now = Ok h1) (Hl : l ≡ₚ map_to_list (hd_status h1)) (Hh : hosts_of h1 = [hp]) (Hh0 : hosts_of h0 = [hp]).
Local Definition hc (c : nat) : MHealthd.hd := match c with O => h0 | S _ => h1 end.
Local Definition none (c : nat) : list (option (list string)) := replicate c None.
Local Definition st h lp q req d rounds calls hq : hl := HL h lp q req d rounds calls [] hq false [] [].
Local Definition q_at (n : nat) : hl :=
  let '(c, r) := rq n in
  match r with
  | 0 => st (hc c) ASel [] 0 (DTop 0) (none c ++ [Some [hp]]) [] []
  | 1 => st (hc c) ASel [(c, Some R)] 0 (DTop 0) (none c ++ [Some []]) [] []
  | 2 => st h1 AReq [] 0 (DTop 0) (none c ++ [Some []]) [] []
  | 3 => st h1 ASel [] 1 (DTop 0) (none c ++ [Some []]) [] []
  | 4 => st h1 ASel [] 0 (DChk (tm (n - 1))) (none c ++ [Some []]) [] []
  | 5 => st h1 ASel [] 0 (DSnd (tm (n - 2))) (none c ++ [Some []]) [] []
  | 6 => st h1 ASel [] 0 (DTop 0) (none c ++ [Some []]) [] []
  | 7 => st h1 ASel [(c, None)] 0 (DTop 0) (none c ++ [None]) [] []
  | 8 => st h1 ASel [] 0 (DTop 0) (none c ++ [None]) [] []
  | 9 => st h1 ASel [] 0 (DTop 0) (none c ++ [None]) [(5%nat, QHosts)] []
  | 10 => st h1 ASel [] 0 (DTop 0) (none c ++ [None]) [] [5%nat]
  | 11 => st h1 (AReplyH 5 (safe_hosts l)) [] 0 (DTop 0) (none c ++ [None]) [] []
  | _ => st h1 ASel [] 0 (DTop 0) (none c ++ [None]) [] []
  end%nat.
Local Definition q_act (n : nat) : hact :=
  let '(c, r) := rq n in
  match r with
  | 0 => HPush c R | 1 => HTakeResp c R 1000 1001 | 2 => HReq | 3 => HDeb DTake | 4 => HDeb DCheck | 5 => HFire o | 6 => HPushNil c | 7 => HTakeNil c o
  | 8 => HCall 5 QHosts | 9 => HQueue 5 QHosts | 10 => HTakeH 5 l | 11 => HRet 5 (AnsH (safe_hosts l)) | _ => HTick now
  end%nat.
Definition q_x : exec hl (Z * hact) := Exec q_at (λ n, Some (tm n, q_act n)).

Local Lemma last_round c (p q : option (list string)) : (none c ++ [p]) !! c = Some p ∧ <[c := q]> (none c ++ [p]) = none c ++ [q].
Proof using.
  unfold none. split; [apply list_lookup_middle; by rewrite replicate_length|].
  rewrite insert_app_r_alt by (by rewrite replicate_length). by rewrite replicate_length, Nat.sub_diag.
Qed.
Local Lemma none_S c : none (S c) = none c ++ [None].
Proof using. unfold none. by rewrite replicate_S_end. Qed.

Lemma q_step n : hlstep (q_at n) (tm n, q_act n) (q_at (S n)).
Proof using All.
  unfold q_at, q_act. cbn [rq]. pose proof (rq_lt n) as Hlt. destruct (rq n) as [c r] eqn:En. cbn [snd] in Hlt.
  do 13 (try destruct r as [|r]); [..|lia]; cbn [fst snd].
  - destruct (last_round c (Some [hp]) (Some [])) as [L1 L2]. pose proof (Hl_push (st (hc c) ASel [] 0 (DTop 0) (none c ++ [Some [hp]]) [] []) (tm n) c [hp] R) as H. rewrite HR in H.
    unfold with_queue in H. cbn [l_rounds l_resp l_hd l_loop l_req l_deb l_pass l_iq l_hq l_flag l_stop l_bye st] in H.
    change (remove string_dec hp [hp]) with (@nil string) in H. rewrite L2 in H. apply H; [done|done|by left|done].
  - pose proof (Hl_take_resp (st (hc c) ASel [(c, Some R)] 0 (DTop 0) (none c ++ [Some []]) [] []) (tm n) c R [] 1000 1001 eq_refl eq_refl) as H. cbn [l_hd st] in H.
    assert (E : consume (hc c) R 1000 1001 = Ok h1) by (by destruct c). rewrite E in H. exact H.
  - apply (Hl_req (st h1 AReq [] 0 (DTop 0) (none c ++ [Some []]) [] []) (tm n)); done.
  - replace (S n - 1)%nat with n by lia. apply (Hl_deb_take (st h1 ASel [] 1 (DTop 0) (none c ++ [Some []]) [] []) (tm n) (DChk (tm n))); [done|done|]. apply (Db_take threshold 0 (tm n)).
  - destruct n as [|n]; [done|]. replace (S (S n) - 2)%nat with n by lia. replace (S n - 1)%nat with n by lia.
    apply (Hl_deb_check (st h1 ASel [] 0 (DChk (tm n)) (none c ++ [Some []]) [] []) (tm (S n)) (DSnd (tm n))); [done|].
    assert (E : negb (tm n =? 0) && (threshold <? since_oldest (tm (S n)) (tm n)) = true).
    { assert (tm n ≠ 0) by (unfold tm; lia). apply andb_true_iff. split; [apply negb_true_iff; by apply Z.eqb_neq|]. apply Z.ltb_lt.
      replace (tm (S n)) with (tm n + 3000000000) by (unfold tm; lia). unfold since_oldest, since. replace (tm n + 3000000000 - tm n) with 3000000000 by lia. by vm_compute. }
    pose proof (Db_check threshold (tm n) (tm (S n))) as H. rewrite E in H. exact H.
  - pose proof (Hl_fire (st h1 ASel [] 0 (DSnd (tm (n - 2))) (none c ++ [Some []]) [] []) (tm n) o (DTop 0) eq_refl (Db_sent threshold (tm (n - 2)) (tm n)) Ho) as H.
    cbn [l_hd st] in H. rewrite H2 in H. exact H.
  - destruct (last_round c (Some []) None) as [L1 L2]. pose proof (Hl_push_nil (st h1 ASel [] 0 (DTop 0) (none c ++ [Some []]) [] []) (tm n) c) as H.
    unfold with_queue in H. cbn [l_rounds l_resp l_hd l_loop l_req l_deb l_pass l_iq l_hq l_flag l_stop l_bye st] in H. rewrite L2 in H. apply H; done.
  - pose proof (Hl_take_nil (st h1 ASel [(c, None)] 0 (DTop 0) (none c ++ [None]) [] []) (tm n) c [] o eq_refl eq_refl Ho) as H. cbn [l_hd st] in H. rewrite H2 in H. exact H.
  - apply (Hl_call (st h1 ASel [] 0 (DTop 0) (none c ++ [None]) [] []) (tm n) 5 QHosts); [done|done|]. unfold l_idle. cbn. split; [intros q; apply not_elem_of_nil|]. repeat split; try apply not_elem_of_nil; done.
  - apply (Hl_queue_h (st h1 ASel [] 0 (DTop 0) (none c ++ [None]) [(5%nat, QHosts)] []) (tm n) 5 [] []); done.
  - apply (Hl_take_h (st h1 ASel [] 0 (DTop 0) (none c ++ [None]) [] [5%nat]) (tm n) 5 [] l); done.
  - apply (Hl_ret_h (st h1 (AReplyH 5 (safe_hosts l)) [] 0 (DTop 0) (none c ++ [None]) [] []) (tm n) 5 (safe_hosts l)); done.
  - pose proof (Hl_tick (st h1 ASel [] 0 (DTop 0) (none c ++ [None]) [] []) (tm n) now eq_refl) as H. cbn [l_hd st] in H. rewrite H3 in H. rewrite none_S, <- Hh. exact H.
Qed.

(** what never is possible *)
Local Lemma steady n ac s' : hlstep (q_at n) ac s' →
  match ac.2 with HTakeI _ | HStopTake _ | HStopRet _ => False | HQueue i _ => i = 5%nat | HPush k _ => ((rq n).1 ≤ k)%nat | _ => True end.
Proof using.
  intros St. unfold q_at in St. destruct (rq n) as [c r] eqn:En. cbn [fst].
  assert (Hgen : ∀ h lp q req d p calls hq, (calls = [] ∨ calls = [(5%nat, QHosts)]) → lp ≠ ABye →
    hlstep (st h lp q req d (none c ++ [p]) calls hq) ac s' →
    match ac.2 with HTakeI _ | HStopTake _ | HStopRet _ => False | HQueue i _ => i = 5%nat | HPush k _ => (c ≤ k)%nat | _ => True end).
  { clear. intros h lp q req d p calls hq Hc Hlp St. remember (st _ _ _ _ _ _ _ _) as s eqn:E.
    destruct St as [|? ? k rem ? El Hk Hin| |? ? ? ? ? ? ? El Eq|? ? ? ? ? El Eq|? ? El| | | |? ? ? ? El Hs| | |? ? ? p1 ? El Ep|? ? ? p1 ? El Ep|? ? ? ? El Ei|? ? ? ? ? El Ei|? ? ? ? El|? ? ? ? El| |? ? ? El Hi|? ? ? El]; subst s; cbn in *; try exact I.
    - destruct (decide (c ≤ k)%nat) as [|Hlt]; [done|]. unfold none in Hk. rewrite lookup_app_l in Hk by (rewrite replicate_length; lia).
      apply lookup_replicate in Hk as [? _]. done.
    - destruct Hc as [-> | ->]; [by destruct p1|]. destruct p1 as [|? [|]]; by inversion Ep.
    - destruct Hc as [-> | ->]; [by destruct p1|]. destruct p1 as [|? [|]]; by inversion Ep.
    - discriminate Ei.
    - by apply not_elem_of_nil in Hi.
    - done. }
  do 13 (try destruct r as [|r]); (eapply Hgen; [| |exact St]); try done; auto.
Qed.
Lemma failing_again : healthd_exec ["h:1"] q_x ∧ healthd_fair q_x ∧ asks_fair q_x ∧ never (is_act is_stop) q_x ∧ clock_right q_x.
Proof using All.
  assert (Hloop : ∀ n, match l_loop (q_at n) with ACrash => False | AReq => l_req (q_at n) = 0 | _ => True end).
  { intros n. unfold q_at. destruct (rq n) as [c r]. by do 13 (try destruct r as [|r]). }
  assert (Hs : ∀ Q : hact → Prop, (∀ n t ac s', hlstep (q_at n) (t, ac) s' → ¬ Q ac) → strongly_fair hlstep (is_act Q) q_x).
  { intros Q Ha. apply (strong_impossible _ _ _ 0). intros n _ ([t ac]&s'&Hp&Hst). exact (Ha n t ac s' Hst Hp). }
  assert (Hw : ∀ Q : hact → Prop, (∀ n t ac s', hlstep (q_at n) (t, ac) s' → ¬ Q ac) → weakly_fair hlstep (is_act Q) q_x).
  { intros Q Ha. apply weak_impossible. intros n. exists n. split; [lia|]. intros ([t ac]&s'&Hp&Hst). exact (Ha n t ac s' Hst Hp). }
  assert (Hh' : ∀ (Q : hact → Prop) r, (r < 13)%nat → (∀ k, (rq k).2 = r → Q (q_act k)) → ∀ n, ∃ m, (n ≤ m)%nat ∧ happens (is_act Q) q_x m).
  { intros Q r Hr Hq n. destruct (rq_again n r Hr) as (k&Hk&Er). exists k. split; [done|]. eexists. split; [reflexivity|]. exact (Hq k Er). }
  split; [|split; [|split; [|split]]].
  - constructor; [intros n; exact (q_step n)| | |].
    + cbn. unfold q_at. cbn. unfold hl_init. change (hd_init ["h:1"]) with (hd_init [hp]). rewrite <- H0, Hh0. done.
    + intros n E. specialize (Hloop n). change (x_at q_x n) with (q_at n) in E. by rewrite E in Hloop.
    + intros n (El&Er&_). specialize (Hloop n). change (x_at q_x n) with (q_at n) in El, Er. by rewrite El, Er in Hloop.
  - constructor.
    + apply strong_happens. apply (Hh' _ 1%nat); [lia|]. intros k E. unfold q_act. destruct (rq k) as [c r]. cbn in E. by subst r.
    + apply Hs. intros n t ac s' St Hq. apply steady in St. cbn in St. by destruct ac.
    + apply strong_happens. apply (Hh' _ 10%nat); [lia|]. intros k E. unfold q_act. destruct (rq k) as [c r]. cbn in E. by subst r.
    + apply strong_happens. apply (Hh' _ 5%nat); [lia|]. intros k E. unfold q_act. destruct (rq k) as [c r]. cbn in E. by subst r.
    + apply Hs. intros n t ac s' St Hq. apply steady in St. cbn in St. by destruct ac.
    + intros i. destruct (decide (i = 5%nat)) as [->|Hne].
      * apply strong_happens. apply (Hh' _ 9%nat); [lia|]. intros k E. unfold q_act. destruct (rq k) as [c r]. cbn in E. by subst r.
      * apply Hs. intros n t ac s' St Hq. apply steady in St. cbn in St. destruct ac; try done. cbn in Hq. congruence.
    + apply weak_happens. apply (Hh' _ 2%nat); [lia|]. intros k E. unfold q_act. destruct (rq k) as [c r]. cbn in E. by subst r.
    + apply weak_happens. apply (Hh' _ 11%nat); [lia|]. intros k E. unfold q_act. destruct (rq k) as [c r]. cbn in E. by subst r.
    + apply weak_happens. apply (Hh' _ 3%nat); [lia|]. intros k E. unfold q_act. destruct (rq k) as [c r]. cbn in E. by subst r.
    + apply Hw. intros n t ac s' St Hq. apply steady in St. cbn in St. by destruct ac.
  - constructor.
    + apply strong_happens. apply (Hh' _ 12%nat); [lia|]. intros k E. unfold q_act. destruct (rq k) as [c r]. cbn in E. by subst r.
    + intros k h. apply (strong_impossible _ _ _ (S k * 13)%nat). intros n Hn ([t ac]&s'&Hp&St). change (x_at q_x n) with (q_at n) in St. apply steady in St. cbn in St.
      unfold is_act in Hp. cbn in Hp. destruct ac; try done. destruct Hp as [-> _]. pose proof (rq_le n (S k * 13) Hn) as Hle. rewrite rq_round in Hle. cbn in Hle. lia.
  - intros n ([t ac]&[= <- <-]&Hq). unfold is_act in Hq. cbn [snd] in Hq. unfold q_act in Hq. destruct (rq n) as [c r]. by do 13 (try destruct r as [|r]).
  - intros n t k r t1 t2 [= _ E]. unfold q_act in E. destruct (rq n) as [c j]. do 13 (try destruct j as [|j]); by simplify_eq.
Qed.

(** healthtop *)
Context (a : list hstatus).
Local Definition t_top (c : nat) : MTop.top (list hstatus) := match c with O => MTop.Top None tstatus0 | S _ => MTop.Top (Some a) (TStatus 7 0 "") end.
Local Definition t_at (n : nat) : tloop (list hstatus) :=
  let '(c, r) := rq n in
  TLoop (PWaiting :: replicate c PFinished ++ match r with 9 | 10 | 11 => [PWaiting] | 12 => [PSending (inl a)] | _ => [] end%nat) (t_top c).
Local Definition t_act (n : nat) : option (tlev (list hstatus)) :=
  let '(c, r) := rq n in
  match r with 8 => Some LTick | 11 => Some (LAnswer (S c) (inl a)) | 12 => Some (LTake (S c) 7) | _ => None end%nat.
Definition s_x : exec (tloop (list hstatus)) (tlev (list hstatus)) := Exec t_at t_act.
Local Lemma last_poll c (p q : poller (list hstatus)) :
  (PWaiting :: replicate c PFinished ++ [p]) !! S c = Some p ∧ <[S c := q]> (PWaiting :: replicate c PFinished ++ [p]) = PWaiting :: replicate c PFinished ++ [q].
Proof using.
  split; [change ((replicate c PFinished ++ [p]) !! c = Some p); apply list_lookup_middle; by rewrite replicate_length|].
  change (PWaiting :: <[c := q]> (replicate c PFinished ++ [p]) = PWaiting :: replicate c PFinished ++ [q]).
  rewrite insert_app_r_alt by (by rewrite replicate_length). by rewrite replicate_length, Nat.sub_diag.
Qed.
Lemma s_exec : is_exec tlstep s_x ∧ x_at s_x 0%nat = tloop0.
Proof using.
  split; [|done]. intros n. cbn [x_at x_act s_x]. unfold t_at, t_act. cbn [rq]. pose proof (rq_lt n) as Hl'.
  destruct (rq n) as [c r]. cbn [snd] in Hl'. do 13 (try destruct r as [|r]); try lia; try done.
  - unfold tlstep, tl_step. cbn. by rewrite app_nil_r.
  - unfold tlstep, tl_step. cbn [tl_polls]. destruct (last_poll c PWaiting (PSending (inl a))) as [-> E]. by rewrite E.
  - unfold tlstep, tl_step. cbn [tl_polls]. destruct (last_poll c (PSending (inl a)) PFinished) as [-> E]. rewrite E, app_nil_r. f_equal. f_equal; [|by destruct c].
    cbn. f_equal. symmetry. apply replicate_S_end.
Qed.
Lemma s_fair : loop_fair s_x ∧ ends_or_not s_x ∧ forever (happens is_page s_x).
Proof using.
  split; [|split].
  - intros i. apply weak_impossible. intros n. exists (n * 13)%nat. split; [lia|]. intros (e&s'&(now'&->)&St). unfold tlstep, tl_step in St. cbn [x_at s_x] in St. unfold t_at in St.
    rewrite rq_round in St. cbn [tl_polls] in St. rewrite app_nil_r in St.
    destruct i as [|i]; cbn in St; [done|].
    destruct (replicate n PFinished !! i) as [p|] eqn:E; [|done]. apply lookup_replicate in E as [-> _]. done.
  - intros [|c].
    { right. intros n (e&He&(r&->)). cbn [x_act s_x] in He. unfold t_act in He. destruct (rq n) as [c k]. by do 13 (try destruct k as [|k]). }
    left. exists (11 + c * 13)%nat. eexists. split; [|by eexists]. cbn [x_act s_x]. unfold t_act. rewrite rq_in by lia. done.
  - intros n. exists (11 + n * 13)%nat. split; [lia|]. eexists. split; [|by do 2 eexists]. cbn [x_act s_x]. unfold t_act. rewrite rq_in by lia. done.
Qed.
Lemma hosts_again srt off fmt inst : hosts_page srt off fmt inst (safe_hosts l) a → hosts_exec srt off fmt inst q_x s_x.
Proof using.
  intros Hp. destruct s_exec as [T1 T2], s_fair as (T3&T4&T5). constructor; try done. intros n i b Hb.
  cbn [x_act s_x] in Hb. unfold t_act in Hb. destruct (rq n) as [c r] eqn:E. do 11 (destruct r as [|r]; [done|]). destruct r as [|r]; [|by destruct r]. injection Hb as <- <-.
  exists n, (tm n), 5%nat, (safe_hosts l). split; [done|]. split; [|split; [|apply Hp]].
  - rewrite <- (tl_polls_length s_x T1 T2). cbn [x_at s_x]. unfold t_at. rewrite E. cbn. rewrite app_length, replicate_length. cbn. lia.
  - cbn [x_act q_x]. unfold q_act. rewrite E. done.
Qed.
End Failing.

Lemma q_ok : host_ok good_name (λ _, 0) q_status.
Proof.
  assert (I : ∀ n, 0 ≤ n < 100 → in_int64 n) by (unfold in_int64; lia).
  split; [apply (name_ok good_name good_admits); by vm_compute|]. split; [apply (name_ok good_name good_admits); by vm_compute|].
  split; [apply (name_ok good_name good_admits); by vm_compute|]. split; [repeat (constructor; [apply I; cbn; lia|]); constructor|].
  repeat (apply Forall_cons_2; [split; [unfold zone_ok; lia|apply PWire2.year_iff; eexists; vm_compute; reflexivity]|]). constructor.
Qed.
Lemma q_page fmt : tidy (fmt clock) → hosts_page isort (λ _, 0) fmt "healthd.1" [q_status] [q_status].
Proof.
  intros Hfmt. destruct (PWire2.thm_hosts_page (λ _, 0) "" "healthd.1" minute [q_status] "" 0) as (body&B1&B2).
  - apply (name_ok good_name good_admits). by vm_compute.
  - unfold in_int64, minute. lia.
  - constructor; [apply q_ok|constructor].
  - exists minute, "", "", 0, body. split; [unfold in_int64, minute; lia|]. split; [|split; [exact B1|exact B2]].
    constructor; [|constructor]. split; [apply q_ok|]. split; [by apply tidyb_tidy|]. split; [by apply tidyb_tidy|]. done.
Qed.

Lemma host_failing : ∃ x y, healthd_exec ["h:1"] x ∧ healthd_fair x ∧ asks_fair x ∧ never (is_act is_stop) x ∧ clock_right x ∧
  hosts_exec isort (λ _, 0) (λ _, "noon") "healthd.1" x y ∧
  (∃ t, x_act x 1%nat = Some (t, HTakeResp 0 q_resp 1000 1001)) ∧ (∃ t, x_act x 27%nat = Some (t, HTakeResp 2 q_resp 1000 1001)) ∧
  rounds_before x 20%nat = 2%nat ∧ on_screen y 12%nat = None ∧ on_screen y 13%nat = Some [q_status].
Proof.
  assert (HF : ∃ h1 o now l, consume (hd_init [hp]) q_resp 1000 1001 = Ok h1 ∧ consume h1 q_resp 1000 1001 = Ok h1 ∧ rorder_ok h1 o ∧ recalc h1 o = Ok h1 ∧ purge h1 now = Ok h1 ∧
    l ≡ₚ map_to_list (hd_status h1) ∧ hosts_of h1 = [hp] ∧ hosts_of (hd_init [hp]) = [hp] ∧ safe_hosts l = [q_status]).
  { set (h1 := HD 0 0 [] ∅ ∅ {[hp := q_status]}). exists h1, (the_order h1), (λ _, 0), [(hp, q_status)].
    assert (E : ∀ s st, hd_status s !! hp = Some st → hs_hp st = hp → hs_first st = 0 → hs_last st = 0 →
      consume s q_resp 1000 1001 = Ok (HD (hd_dur s) (hd_max s) (hd_pub s) (hd_host s) (hd_need s) (<[hp := q_status]> (hd_status s)))).
    { intros s st Es E1 E2 E3. unfold consume. change (r_hp q_resp) with hp. rewrite Es. change (resp_good q_resp) with false. cbv iota. do 3 f_equal. unfold update_status. cbn. by rewrite E1, E2, E3. }
    split; [rewrite (E _ (hstatus0 hp)) by done; cbn; by rewrite insert_insert|]. split; [rewrite (E _ q_status) by done; unfold h1; cbn [hd_dur hd_max hd_pub hd_host hd_need hd_status]; do 2 f_equal; by rewrite insert_singleton|]. split; [apply the_order_ok|].
    split; [done|]. split; [done|]. split; [done|]. split; done. }
  destruct HF as (h1&o&now&l&F1&F2&F3&F4&F5&F6&F7&F8&F9).
  destruct (failing_again q_resp (hd_init [hp]) h1 o now l) as (X1&X2&X3&X4&X5); [done..|].
  exists (q_x q_resp (hd_init [hp]) h1 o now l), (s_x [q_status]). do 5 (split; [done|]). split.
  { apply hosts_again. rewrite F9. apply q_page. by apply tidyb_tidy. }
  split; [by eexists|]. split; [by eexists|]. done.
Qed.
