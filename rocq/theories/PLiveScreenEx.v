(** * A fair execution of a process, healthd and healthtop (C127) *)
From Verif Require Import PFair PHealthd PHealthdEx PHealthdLoop PHealthdLoopEx PApi PApiEx PContent PContent2 PAgg PAgg2 PNum2 PWire PWire2 PWireEx PHealthEx PSystem PSystemEx PSystemEx2 PLiveSystemEx PTopTable PLiveTop SLive8.

Local Definition tm (n : nat) : Z := 3000000000 * (Z.of_nat n + 1).
Local Definition hp : string := "h:1".

(** rounds of six moments: number of the round, and moment in it *)
Fixpoint rp (k : nat) : nat * nat :=
  match k with
  | O => (0, 0)
  | S k => match rp k with (c, 5) => (S c, 0) | (c, r) => (c, S r) end
  end%nat.
Lemma rp_round c : rp (c * 6) = (c, 0)%nat.
Proof. induction c as [|c IH]; [done|]. change (S c * 6)%nat with (S (S (S (S (S (S (c * 6))))))). cbn [rp]. by rewrite IH. Qed.
Lemma rp_in c r : (r < 6)%nat → rp (r + c * 6) = (c, r).
Proof. intros Hr. assert (E := rp_round c). do 6 (destruct r as [|r]; [cbn [rp Nat.add]; by rewrite E|]). lia. Qed.
Lemma rp_lt k : ((rp k).2 < 6)%nat.
Proof. induction k as [|k IH]; [cbn; lia|]. cbn [rp]. destruct (rp k) as [c r]. cbn in IH. do 6 (destruct r as [|r]; [cbn; lia|]). lia. Qed.
Lemma rp_again n r : (r < 6)%nat → ∃ k, (n ≤ 6 + k)%nat ∧ (rp k).2 = r.
Proof. intros Hr. exists (r + n * 6)%nat. split; [lia|]. by rewrite rp_in. Qed.

Section Shown.
Context (R : resp) (h1 h2 : MHealthd.hd) (o : rorder) (a : list ajob).
Context (HR : r_hp R = hp) (H1 : consume (hd_init [hp]) R 1000 1001 = Ok h1) (Ho : rorder_ok h1 o) (H2 : recalc h1 o = Ok h2).
Local Definition st (h : MHealthd.hd) lp q req d calls iq : hl := HL h lp q req d [Some []] calls iq [] false [] [].
Local Definition w_at (n : nat) : hl :=
  let h0 := hd_init [hp] in
  match n with
  | 0 => hl_init [hp]
  | 1 => st h0 ASel [(0%nat, Some R)] 0 (DTop 0) [] []
  | 2 => st h1 AReq [] 0 (DTop 0) [] []
  | 3 => st h1 ASel [] 1 (DTop 0) [] []
  | 4 => st h1 ASel [] 0 (DChk (tm 3)) [] []
  | 5 => st h1 ASel [] 0 (DSnd (tm 3)) [] []
  | S (S (S (S (S (S k))))) =>
      match (rp k).2 with
      | 0 => st h2 ASel [] 0 (DTop 0) [] []
      | 1 => st h2 ASel [] 0 (DTop 0) [(5%nat, QIntervals)] []
      | 2 => st h2 ASel [] 0 (DTop 0) [] [5%nat]
      | 3 => st h2 (AReplyI 5 (safe_intervals h2)) [] 0 (DTop 0) [] []
      | 4 => st h2 ASel [] 0 (DTop 0) [] []
      | _ => st h2 ASel [] 0 (DChk 0) [] []
      end
  end%nat.
Local Definition w_act (n : nat) : hact :=
  match n with
  | 0 => HPush 0 R | 1 => HTakeResp 0 R 1000 1001 | 2 => HReq | 3 => HDeb DTake | 4 => HDeb DCheck | 5 => HFire o
  | S (S (S (S (S (S k))))) =>
      match (rp k).2 with
      | 0 => HCall 5 QIntervals | 1 => HQueue 5 QIntervals | 2 => HTakeI 5 | 3 => HRet 5 (AnsI (safe_intervals h2)) | 4 => HDeb DIdle | _ => HDeb DCheck
      end
  end%nat.
Definition w_x : exec hl (Z * hact) := Exec w_at (λ n, Some (tm n, w_act n)).
Local Lemma at6 k : x_at w_x (6 + k) = w_at (6 + k).
Proof. done. Qed.

Lemma w_step n : hlstep (w_at n) (tm n, w_act n) (w_at (S n)).
Proof using All.
  do 6 (try destruct n as [|n]).
  - pose proof (Hl_push (hl_init [hp]) (tm 0) 0 [hp] R) as H. rewrite HR in H. apply H; [done|done|by left|done].
  - pose proof (Hl_take_resp (w_at 1) (tm 1) 0 R [] 1000 1001 eq_refl eq_refl) as H. change (l_hd (w_at 1)) with (hd_init [hp]) in H. rewrite H1 in H. exact H.
  - pose proof (Hl_req (w_at 2) (tm 2)) as H. apply H; done.
  - pose proof (Hl_deb_take (w_at 3) (tm 3) (DChk (tm 3))) as H. apply H; [done|done|]. apply (Db_take threshold 0 (tm 3)).
  - pose proof (Hl_deb_check (w_at 4) (tm 4) (DSnd (tm 3))) as H. apply H; [done|]. apply (Db_check threshold (tm 3) (tm 4)).
  - pose proof (Hl_fire (w_at 5) (tm 5) o (DTop 0) eq_refl (Db_sent threshold (tm 3) (tm 5)) Ho) as H. change (l_hd (w_at 5)) with h1 in H. rewrite H2 in H. exact H.
  - pose proof (rp_lt n) as Hl. change (w_at (S (S (S (S (S (S (S n)))))))) with (w_at (6 + S n)). cbn [w_at w_act Nat.add rp]. destruct (rp n) as [c r]. cbn [snd] in *.
    set (T := tm _). generalize T. clear T. intros T.
    do 6 (try destruct r as [|r]); cbn [snd]; [..|lia].
    + apply (Hl_call (st h2 ASel [] 0 (DTop 0) [] []) T 5 QIntervals); [done|done|]. unfold l_idle. cbn. split; [intros q; apply not_elem_of_nil|]. repeat split; try apply not_elem_of_nil; done.
    + apply (Hl_queue_i (st h2 ASel [] 0 (DTop 0) [(5%nat, QIntervals)] []) T 5 [] []); done.
    + apply (Hl_take_i (st h2 ASel [] 0 (DTop 0) [] [5%nat]) T 5 []); done.
    + apply (Hl_ret_i (st h2 (AReplyI 5 (safe_intervals h2)) [] 0 (DTop 0) [] []) T 5 (safe_intervals h2)); done.
    + apply (Hl_deb_idle (st h2 ASel [] 0 (DTop 0) [] []) T (DChk 0)); [done|done|]. apply (Db_idle threshold 0).
    + apply (Hl_deb_check (st h2 ASel [] 0 (DChk 0) [] []) T (DTop 0)); [done|]. apply (Db_check threshold 0 T).
Qed.
(** what never is possible *)
Local Lemma steady n ac s' : (6 ≤ n)%nat → hlstep (w_at n) ac s' →
  match ac.2 with HTakeResp _ _ _ _ | HTakeNil _ _ | HTakeH _ _ | HFire _ | HStopTake _ | HReq | HStopRet _ => False | HQueue i _ => i = 5%nat | _ => True end.
Proof using.
  intros Hn St. do 6 (destruct n as [|n]; [lia|]). clear Hn. pose proof (rp_lt n) as Hl. cbn [w_at] in St. destruct (rp n) as [c r]. cbn [snd] in *. clear c.
  assert (Hgen : ∀ lp d calls iq, (∀ o, d ≠ DSnd o) → (calls = [] ∨ calls = [(5%nat, QIntervals)]) → (lp = ASel ∨ lp = AReplyI 5 (safe_intervals h2)) →
    hlstep (st h2 lp [] 0 d calls iq) ac s' →
    match ac.2 with HTakeResp _ _ _ _ | HTakeNil _ _ | HTakeH _ _ | HFire _ | HStopTake _ | HReq | HStopRet _ => False | HQueue i _ => i = 5%nat | _ => True end).
  { clear. intros lp d calls iq Hd Hc Hlp St. remember (st _ _ _ _ _ _ _) as s eqn:E.
    destruct St as [| | |? ? ? ? ? ? ? El Eq|? ? ? ? ? El Eq|? ? El| | | |? ? ? ? El Hs| | |? ? ? p ? El Ep|? ? ? p ? El Ep|? ? ? ? El Ei|? ? ? ? ? El Ei|? ? ? ? El|? ? ? ? El| |? ? ? El Hi|? ? ? El]; subst s; cbn in *; try exact I.
    - discriminate Eq.
    - discriminate Eq.
    - by destruct Hlp; subst lp.
    - inversion Hs; subst. by eapply Hd.
    - destruct Hc as [-> | ->]; [by destruct p|]. destruct p as [|? [|]]; by inversion Ep.
    - destruct Hc as [-> | ->]; [by destruct p|]. destruct p as [|? [|]]; by inversion Ep.
    - discriminate Ei.
    - by apply not_elem_of_nil in Hi.
    - by destruct Hlp; subst lp. }
  do 6 (try destruct r as [|r]); try lia; (eapply Hgen; [| | |exact St]); try done; auto.
Qed.
Lemma shown_again : healthd_exec ["h:1"] w_x ∧ healthd_fair w_x ∧ time_passes w_x ∧ never (is_act is_stop) w_x ∧
  ∀ n, ops (acts w_x n) = if decide (n < 2)%nat then [] else if decide (n < 6)%nat then [HResp R 1000 1001] else [HResp R 1000 1001; HRecalc o].
Proof using All.
  assert (Hloop : ∀ n, match l_loop (w_at n) with ACrash => False | AReq => l_req (w_at n) = 0 | _ => True end).
  { intros n. do 6 (destruct n as [|n]; [done|]). cbn [w_at]. destruct (rp n).2 as [|[|[|[|[|[|?]]]]]]; done. }
  split; [|split; [|split; [|split]]].
  - constructor; [intros n; exact (w_step n)|done| |].
    + intros n E. specialize (Hloop n). change (x_at w_x n) with (w_at n) in E. by rewrite E in Hloop.
    + intros n (El&Er&_). specialize (Hloop n). change (x_at w_x n) with (w_at n) in El, Er. by rewrite El, Er in Hloop.
  - assert (Hno : ∀ Q : hact → Prop, (∀ n t ac s', (6 ≤ n)%nat → hlstep (w_at n) (t, ac) s' → ¬ Q ac) → ∀ n, (6 ≤ n)%nat → ¬ possible hlstep (is_act Q) (x_at w_x n)).
    { intros Q Ha n Hn ([t ac]&s'&Hp&Hs). exact (Ha n t ac s' Hn Hs Hp). }
    assert (Hs : ∀ Q : hact → Prop, (∀ n t ac s', (6 ≤ n)%nat → hlstep (w_at n) (t, ac) s' → ¬ Q ac) → strongly_fair hlstep (is_act Q) w_x).
    { intros Q Ha. apply (strong_impossible _ _ _ 6). by apply Hno. }
    assert (Hw : ∀ Q : hact → Prop, (∀ n t ac s', (6 ≤ n)%nat → hlstep (w_at n) (t, ac) s' → ¬ Q ac) → weakly_fair hlstep (is_act Q) w_x).
    { intros Q Ha. apply weak_impossible. intros n. exists (max n 6). split; [lia|]. apply Hno; [done|lia]. }
    assert (Hh : ∀ (Q : hact → Prop) r, (r < 6)%nat → (∀ k, (rp k).2 = r → Q (w_act (6 + k))) → ∀ n, ∃ m, (n ≤ m)%nat ∧ happens (is_act Q) w_x m).
    { intros Q r Hr Hq n. destruct (rp_again n r Hr) as (k&Hk&Er). exists (6 + k)%nat. split; [done|]. eexists. split; [reflexivity|]. exact (Hq k Er). }
    constructor.
    + apply Hs. intros n t ac s' Hn St Hq. apply steady in St; [|done]. cbn in St. by destruct ac.
    + apply strong_happens. apply (Hh _ 2%nat); [lia|]. intros k E. cbn [w_act Nat.add]. rewrite E. exact I.
    + apply Hs. intros n t ac s' Hn St Hq. apply steady in St; [|done]. cbn in St. by destruct ac.
    + apply Hs. intros n t ac s' Hn St Hq. apply steady in St; [|done]. cbn in St. by destruct ac.
    + apply Hs. intros n t ac s' Hn St Hq. apply steady in St; [|done]. cbn in St. by destruct ac.
    + intros i. destruct (decide (i = 5%nat)) as [->|Hne].
      * apply strong_happens. apply (Hh _ 1%nat); [lia|]. intros k E. cbn [w_act Nat.add]. by rewrite E.
      * apply Hs. intros n t ac s' Hn St Hq. apply steady in St; [|done]. cbn in St. destruct ac; try done. cbn in Hq. congruence.
    + apply Hw. intros n t ac s' Hn St Hq. apply steady in St; [|done]. cbn in St. by destruct ac.
    + apply weak_happens. apply (Hh _ 3%nat); [lia|]. intros k E. cbn [w_act Nat.add]. rewrite E. exact I.
    + apply weak_happens. apply (Hh _ 4%nat); [lia|]. intros k E. cbn [w_act Nat.add]. rewrite E. exact I.
    + apply Hw. intros n t ac s' Hn St Hq. apply steady in St; [|done]. cbn in St. by destruct ac.
  - split.
    + intros n t ac [= <- _]. unfold tm. lia.
    + intros T. exists (Z.to_nat T). intros n t ac Hn [= <- _]. unfold tm. lia.
  - intros n ([t ac]&[= <- <-]&Hq). unfold is_act in Hq. cbn [snd] in Hq. do 6 (destruct n as [|n]; [done|]). cbn [w_act] in Hq. destruct (rp n).2 as [|[|[|[|[|[|?]]]]]]; done.
  - intros n. do 6 (destruct n as [|n]; [done|]). assert (E : ops (acts w_x 6%nat) = [HResp R 1000 1001; HRecalc o]) by done.
    rewrite !decide_False by lia. change (S (S (S (S (S (S n)))))) with (6 + n)%nat. induction n as [|n IH]; [exact E|].
    rewrite Nat.add_succ_r, acts_S. unfold ops in *. rewrite omap_app, IH. cbn [x_act w_x w_act Nat.add]. destruct (rp n).2 as [|[|[|[|[|[|?]]]]]]; done.
Qed.

(** healthtop: its first request is never answered, the others one by one *)
Local Definition t_top (c : nat) : MTop.top (list ajob) := match c with O => MTop.Top None tstatus0 | S _ => MTop.Top (Some a) (TStatus 7 0 "") end.
Local Definition t_at (n : nat) : tloop (list ajob) :=
  match n with
  | S (S (S (S (S (S k))))) =>
      let '(c, r) := rp k in
      TLoop (PWaiting :: replicate c PFinished ++ match r with 0 => [] | 1 | 2 | 3 | 4 => [PWaiting] | _ => [PSending (inl a)] end) (t_top c)
  | _ => tloop0
  end%nat.
Local Definition t_act (n : nat) : option (tlev (list ajob)) :=
  match n with
  | S (S (S (S (S (S k))))) =>
      let '(c, r) := rp k in
      match r with 0 => Some LTick | 4 => Some (LAnswer (S c) (inl a)) | 5 => Some (LTake (S c) 7) | _ => None end
  | _ => None
  end%nat.
Definition t_x : exec (tloop (list ajob)) (tlev (list ajob)) := Exec t_at t_act.
Local Lemma last_poll c (p q : poller (list ajob)) :
  (PWaiting :: replicate c PFinished ++ [p]) !! S c = Some p ∧ <[S c := q]> (PWaiting :: replicate c PFinished ++ [p]) = PWaiting :: replicate c PFinished ++ [q].
Proof using.
  split.
  - change ((replicate c PFinished ++ [p]) !! c = Some p). induction c as [|c IH]; [done|]. exact IH.
  - change (PWaiting :: <[c := q]> (replicate c PFinished ++ [p]) = PWaiting :: replicate c PFinished ++ [q]). f_equal. induction c as [|c IH]; [done|].
    change (PFinished :: <[c := q]> (replicate c PFinished ++ [p]) = PFinished :: replicate c PFinished ++ [q]). f_equal. exact IH.
Qed.
Lemma t_exec : is_exec tlstep t_x ∧ x_at t_x 0%nat = tloop0.
Proof using.
  split; [|done]. intros n. do 5 (destruct n as [|n]; [done|]). destruct n as [|n]; [done|]. cbn [x_at x_act t_x t_at t_act rp]. pose proof (rp_lt n) as Hl.
  destruct (rp n) as [c r]. cbn [snd] in Hl. do 6 (try destruct r as [|r]); try lia; cbn [tlstep]; try done.
  - unfold tlstep, tl_step. cbn. by rewrite app_nil_r.
  - unfold tlstep, tl_step. cbn [tl_polls]. destruct (last_poll c PWaiting (PSending (inl a))) as [-> E]. by rewrite E.
  - unfold tlstep, tl_step. cbn [tl_polls]. destruct (last_poll c (PSending (inl a)) PFinished) as [-> E]. rewrite E, app_nil_r. f_equal. f_equal; [|by destruct c].
    cbn. f_equal. symmetry. apply replicate_S_end.
Qed.
Lemma t_fair : loop_fair t_x ∧ ends_or_not t_x ∧ forever (happens is_page t_x).
Proof using.
  split; [|split].
  - intros i. apply weak_impossible. intros n. exists (6 + n * 6)%nat. split; [lia|]. intros (e&s'&(now&->)&St). unfold tlstep, tl_step in St. cbn [x_at t_x t_at Nat.add] in St.
    rewrite rp_round in St. cbn [tl_polls] in St. rewrite app_nil_r in St. destruct i as [|i]; cbn in St; [done|].
    destruct (replicate n PFinished !! i) as [p|] eqn:E; [|done]. apply lookup_replicate in E as [-> _]. done.
  - intros [|c].
    + right. intros n (e&He&(r&->)). do 6 (destruct n as [|n]; [done|]). cbn [x_act t_x t_act] in He. destruct (rp n) as [c k]. by do 6 (try destruct k as [|k]).
    + left. exists (6 + (4 + c * 6))%nat. eexists. split; [|by eexists]. cbn [x_act t_x t_act Nat.add]. change (S (S (S (S (c * 6))))) with (4 + c * 6)%nat. rewrite rp_in by lia. done.
  - intros n. exists (6 + (4 + n * 6))%nat. split; [lia|]. eexists. split; [|by do 2 eexists]. cbn [x_act t_x t_act Nat.add]. change (S (S (S (S (n * 6))))) with (4 + n * 6)%nat. rewrite rp_in by lia. done.
Qed.
Lemma top_again ff srt sort name inst height : (∀ i, top_page ff srt sort name inst (height i) (hd_pub h2) a) → top_exec ff srt sort name inst height w_x t_x.
Proof using.
  intros Hp. destruct t_exec as [T1 T2], t_fair as (T3&T4&T5). constructor; try done. intros n i b Hb.
  do 6 (destruct n as [|n]; [done|]). cbn [x_act t_x t_act] in Hb. destruct n as [|n]; [done|].
  destruct (rp (S n)) as [c r] eqn:E. do 4 (destruct r as [|r]; [done|]). destruct r as [|r]; [|by destruct r]. injection Hb as <- <-.
  assert (En : rp n = (c, 3)%nat). { cbn [rp] in E. pose proof (rp_lt n) as Hl. destruct (rp n) as [c' r]. cbn [snd] in Hl. do 6 (try destruct r as [|r]); try lia; simplify_eq; done. }
  exists (6 + n)%nat, (tm (6 + n)), 5%nat, (hd_pub h2). split; [cbn; lia|]. split; [|split; [|apply Hp]].
  - rewrite <- (tl_polls_length t_x T1 T2). cbn [x_at t_x t_at Nat.add]. rewrite En. cbn. rewrite app_length, replicate_length. cbn. lia.
  - cbn [x_act w_x w_act Nat.add]. rewrite En. done.
Qed.
End Shown.

(** the page *)
Local Definition w_h : MHealthd.hd := z_end1 1.
Definition w_order : list (string * jobagg) := match handler_overall (map pa_ia (hd_pub w_h)) with Some x => map_to_list (ia_jobs x) | None => [] end.
Definition w_rows : option (list ajob) :=
  handler_jobs isort (map pa_ia (hd_pub w_h)) w_order (query_get (top_query "name" "" 24) "sort") (query_get (top_query "name" "" 24) "limit").
Definition w_row : ajob := AJob "job" 0 0 0 0 0 0 0 (S754_zero false) 0 0 (S754_zero false) (S754_zero false).
Lemma w_rows_eq : w_rows = Some [w_row].
Proof. vm_compute. reflexivity. Qed.
Lemma w_legible : legible w_row.
Proof.
  assert (I : ∀ n, 0 ≤ n < 100 → in_int64 n) by (unfold in_int64; lia).
  split; [by apply tidyb_tidy|]; split; [|repeat constructor].
  split; [repeat (constructor; [apply I; cbn; lia|]); constructor|].
  split; exists 0; (split; [done|apply I; lia]).
Qed.
Lemma w_page : top_page go_float isort "name" "" "healthd.1" 24 (hd_pub w_h) [w_row].
Proof.
  destruct (thm_jobs_page go_float "" "healthd.1" minute w_rows "" 0) as (body&B1&B2).
  - apply go_codec.
  - apply (name_ok good_name good_admits). by vm_compute.
  - unfold in_int64, minute. lia.
  - intros l E. rewrite w_rows_eq in E. injection E as <-. constructor; [|constructor]. destruct w_legible as (G1 & [G2 _] & G3). split; [|done]. apply (name_ok good_name good_admits). by vm_compute.
  - exists w_order, minute, "", "", 0, body, [w_row].
    split. { intros ov E. unfold w_order. by rewrite E. }
    split; [unfold in_int64, minute; lia|]. cbv zeta. fold w_rows. split; [|split; [exact B1|split; [|done]]].
    + rewrite w_rows_eq. intros r Hr. apply elem_of_list_singleton in Hr as ->. apply w_legible.
    + rewrite B2, w_rows_eq. done.
Qed.

Lemma on_screen_again : ∃ x trs y, healthd_exec ["h:1"] x ∧ healthd_fair x ∧ time_passes x ∧ never (is_act is_stop) x ∧
  system_exec go_float minute y_proc 0 x trs ∧ (∀ n, in_order (trs n)) ∧ unpurged minute x trs ∧
  top_exec go_float isort "name" "" "healthd.1" (λ _, 24) x y ∧
  (∃ t r, x_act x 1%nat = Some (t, HTakeResp 0 r 1000 1001)) ∧ heard minute y_proc (trs 2%nat) 0 y_start 1 ∧
  of_job "job" (cmds_in minute y_start (take 1 (hist 0 (trs 2%nat)))) = [CEvent "job" "e"] ∧ (∀ n, kept minute y_start (trs n)) ∧
  on_screen y 11%nat = None ∧ on_screen y 12%nat = Some [w_row].
Proof.
  pose proof (z_run1 1 ltac:(by left)) as Hr. unfold z_ops1 in Hr. revert Hr. generalize (the_order (z_state1 1)). intros o1 Hr.
  change [HResp (y_resp 0 1) 1000 1001; HRecalc o1] with ([HResp (y_resp 0 1) 1000 1001] ++ [HRecalc o1]) in Hr.
  apply hrun_snoc in Hr as (h1&Hr1&Ho&Hr2). change [HResp (y_resp 0 1) 1000 1001] with ([] ++ [HResp (y_resp 0 1) 1000 1001]) in Hr1.
  apply hrun_snoc in Hr1 as (h0&Hr0&_&Hr1). inversion Hr0; subst h0. clear H s.
  destruct (shown_again (y_resp 0 1) h1 w_h o1 [w_row]) as (X1&X2&X3&X4&X7); [by vm_compute|exact Hr1|exact Ho|exact Hr2|].
  assert (Hk : ∀ s n, kept minute s (PLiveSystemEx.v_trs o1 n)).
  { intros s n now key Hin _. exfalso. unfold PLiveSystemEx.v_trs in Hin. repeat case_decide; cbn in Hin; repeat (apply elem_of_cons in Hin as [Hin|Hin]; [discriminate|]); by apply elem_of_nil in Hin. }
  exists (w_x (y_resp 0 1) h1 w_h o1), (PLiveSystemEx.v_trs o1), (t_x [w_row]). do 4 (split; [done|]).
  split; [|split; [|split; [|split; [|split; [|split; [|split; [|split; [|split]]]]]]]].
  - assert (S0 : sys go_float minute y_proc 0 z_procs []).
    { assert (H := sys_nil go_float minute y_proc 0).
      apply (sys_proc _ _ _ _ _ _ 0 clock (OpCmd (CEvent "job" "e"))) in H. apply (sys_proc _ _ _ _ _ _ 0 clock OpRead) in H.
      apply (sys_proc _ _ _ _ _ _ 0 (clock + 5) (OpCmd (CEvent "k" "e"))) in H. apply (sys_proc _ _ _ _ _ _ 0 (clock + minute) OpRead) in H. exact H. }
    assert (S1 := S0). apply (y_answer _ _ 0 1 clock) in S1; [|by vm_compute..].
    constructor; [apply PLiveSystemEx.v_grows| |apply PLiveSystemEx.v_ok]. intros n. rewrite X7. apply PLiveSystemEx.v_sys; [exact S0|exact S1].
  - intros n i tr1 k tr2 k' E Hin. exfalso. set (f := λ e : sev, match e with SRecv _ _ => Some tt | _ => None end).
    assert (Hc : ∀ m, (length (omap f (PLiveSystemEx.v_trs o1 m)) ≤ 1)%nat).
    { intros m. unfold PLiveSystemEx.v_trs. repeat case_decide; cbn; lia. }
    specialize (Hc n). apply elem_of_list_split in Hin as (u&v&->). rewrite E, !omap_app, app_length in Hc. cbn in Hc. rewrite omap_app, app_length in Hc. cbn in Hc. lia.
  - intros r p _ _. apply Hk.
  - apply top_again. intros i. apply w_page.
  - exists 6000000000, (y_resp 0 1). done.
  - apply PLiveSystemEx.v_heard.
  - by vm_compute.
  - intros n. apply Hk.
  - done.
  - done.
Qed.
Lemma hung_request : ∃ x : exec (tloop (list ajob)) (tlev (list ajob)), is_exec tlstep x ∧ x_at x 0%nat = tloop0 ∧ loop_fair x ∧ ends_or_not x ∧ forever (happens is_page x) ∧
  never (is_answer 0) x ∧ on_screen x 12%nat = Some [w_row] ∧ polls_before x 12%nat = 2%nat ∧ x_act x 10%nat = Some (LAnswer 1 (inl [w_row])).
Proof.
  exists (t_x [w_row]). destruct (t_exec [w_row]) as [T1 T2], (t_fair [w_row]) as (T3&T4&T5). do 5 (split; [done|]). split; [|done].
  intros n (e&He&(r&->)). do 6 (destruct n as [|n]; [done|]). cbn [x_act t_x t_act] in He. destruct (rp n) as [c k]. by do 6 (try destruct k as [|k]).
Qed.
