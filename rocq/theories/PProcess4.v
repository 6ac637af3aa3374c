(** * A stopped sink of any kind holds up the callers *)
From Verif Require Import PProcess3 PPolling PAgg2.

Lemma jam N (y : nat → ksink) (call : nat → scall) (J : ksink → Prop) :
  (∀ i, (i ≤ N)%nat → kalive (y i)) →
  (∀ i, (i < N)%nat → takes_cmd (y i) (call i 0%nat) (sc_new (call i) 0%nat) (y (S i))) → J (y N) →
  (∀ x x', J x → ¬ takes_cmd x (call N 0%nat) (sc_new (call N) 0%nat) x') →
  (∀ x cs z a s', J x → qstep (Proc cs [x; KOther z]) a s' →
     (∃ g k c e, a = QEmit g k c e) ∨ (∃ g, a = QNext g) ∨ ∃ x', s' = Proc cs [x'; KOther z] ∧ J x') →
  ∃ tr s, qsteps (Proc [Caller 0 (map call (seq 0 (S N)))] [y 0%nat; KOther []]) tr s ∧
    ∀ tr' s', qsteps s tr' s' → told (tr ++ tr') 1 = told tr 1 ∧ length (told tr 1) = N ∧ returned (tr ++ tr') 0 = N.
Proof.
  intros Ha Ht HJ HN Hown.
  assert (G : ∀ m i got, (i + m = N)%nat → ∃ tr got', qsteps (Proc [Caller 0 (map call (seq i (S m)))] [y i; KOther got]) tr
      (Proc [Caller 0 [call N]] [y N; KOther got']) ∧ length (told tr 1) = m ∧ returned tr 0 = m).
  { induction m as [|m IH]; intros i got Hi.
    - exists [], got. assert (i = N) as -> by lia. split; [constructor|done].
    - destruct (IH (S i) (got ++ [call i 1%nat]) ltac:(lia)) as (tr & got' & Q1 & Q2 & Q3).
      exists (QEmit 0 0 (call i 0%nat) (sc_new (call i) 0%nat) :: QEmit 0 1 (call i 1%nat) (sc_new (call i) 1%nat) :: QNext 0 :: tr), got'.
      split; [|split; [exact (f_equal S Q2)|exact (f_equal S Q3)]].
      change (map call (seq i (S (S m)))) with (call i :: map call (seq (S i) (S m))).
      econstructor; [eapply (Qs_emit _ _ 0 0 (call i)); [|reflexivity|reflexivity|apply Ht; lia]|].
      { constructor; [apply Ha; lia|by constructor]. }
      econstructor; [eapply (Qs_emit _ _ 0 1 (call i)); [|reflexivity|reflexivity|apply Tk_other]|].
      { constructor; [apply Ha; lia|by constructor]. }
      econstructor; [eapply (Qs_next _ _ 0 (call i)); [|reflexivity]|exact Q1].
      constructor; [apply Ha; lia|by constructor]. }
  destruct (G N 0%nat [] ltac:(lia)) as (tr & got & Q1 & Q2 & Q3). exists tr. eexists. split; [exact Q1|].
  intros tr' s' H.
  assert (K : ∀ x, J x → qsteps (Proc [Caller 0 [call N]] [x; KOther got]) tr' s' → heard tr' 1 = [] ∧ returned tr' 0 = 0%nat).
  { clear - HN Hown. induction tr' as [|a tr' IH]; intros x Hx H; [done|]. inversion H as [|? ? m ? ? Hs Hss]; subst.
    pose proof (Hown _ _ _ _ _ Hx Hs) as [(g & k & c & e & ->)|[[g ->]|(x' & -> & Hx')]].
    - exfalso. inversion Hs as [cs sk g' at_ c' rest x0 x' Ha Hg Hk Ht| | | | |]; subst. destruct g as [|[]]; try done. cbn in Hg. injection Hg as <- <- <-. cbn in Hk. injection Hk as <-.
      by eapply HN.
    - exfalso. inversion Hs as [|cs sk g' c rest Ha Hg| | | |]; subst. destruct g as [|[]]; try done.
    - destruct (IH _ Hx' Hss) as [E1 E2]. destruct a as [g k c e|g|k b|k b|k b|k b]; try (split; [exact E1|exact E2]).
      + exfalso. inversion Hs as [cs sk g' at_ c' rest x0 x1 Ha Hg Hk Ht Hq1 Hq2 Hq3| | | | |]; subst. destruct g as [|[]]; try done.
      + exfalso. inversion Hs as [|cs sk g' c rest Ha Hg| | | |]; subst. destruct g as [|[]]; try done. }
  destruct (K _ HJ H) as [E1 E2]. unfold told, heard, returned in *. rewrite map_length in *. rewrite !omap_app, E1, app_nil_r, app_length, E2, Q2, Q3. split; [done|]. split; [done|]. lia.
Qed.

Lemma run_one (ks : list ksink) cs a s' tr s'' : qstep (Proc cs ks) a s' → qsteps s' tr s'' → qsteps (Proc cs ks) (a :: tr) s''.
Proof. apply Qss_cons. Qed.

Definition plain_call (i : nat) : scall := SCall (λ _, CEvent "j" "e") (λ _, None).
(** the error with number [i] *)
Definition error_call (i : nat) : scall := SCall (λ _, CEventErr "j" "e" None) (λ _, Some (i, None)).
Lemma all_jam x : new_sink x → usable x → (∀ l, x ≠ KOther l) → ∃ n calls tr s, length calls = S n ∧
  qsteps (proc0 [calls] [x; KOther []]) tr s ∧
  ∀ tr' s', qsteps s tr' s' → told (tr ++ tr') 1 = told tr 1 ∧ length (told tr 1) = n ∧ returned (tr ++ tr') 0 = n.
Proof.
  intros Hf Hu Ho.
  assert (W : ∀ n y call pre tr s, qsteps (proc0 [map call (seq 0 (S n))] [x; KOther []]) pre (Proc [Caller 0 (map call (seq 0 (S n)))] [y; KOther []]) →
      heard pre 1 = [] → returned pre 0 = 0%nat →
      qsteps (Proc [Caller 0 (map call (seq 0 (S n)))] [y; KOther []]) tr s →
      (∀ tr' s', qsteps s tr' s' → told (tr ++ tr') 1 = told tr 1 ∧ length (told tr 1) = n ∧ returned (tr ++ tr') 0 = n) →
      ∃ n calls tr s, length calls = S n ∧ qsteps (proc0 [calls] [x; KOther []]) tr s ∧
        ∀ tr' s', qsteps s tr' s' → told (tr ++ tr') 1 = told tr 1 ∧ length (told tr 1) = n ∧ returned (tr ++ tr') 0 = n).
  { intros n y call pre tr s H1 E1 E2 H2 H3. exists n, (map call (seq 0 (S n))), (pre ++ tr), s. split; [by rewrite map_length, seq_length|].
    split; [apply qsteps_app; eauto|]. intros tr' s' H. destruct (H3 _ _ H) as (A & B & C). unfold told, heard, returned in *.
    rewrite <- app_assoc, !(omap_app _ pre), E1, app_length, E2. done. }
  destruct Hf as [d r|o|c| |]; [| | | |by destruct (Ho [])].
  - destruct Hu as (d' & r' & Hd & Hr & E). rewrite E in *. clear E.
    pose proof (new_aggregator_ok d' r' Hd ltac:(lia)) as Ea. set (a := Aggr d' r' (Z.quot r' d') []) in *.
    assert (E : pst0 d' r' = PSt [] PRun a [] [] []) by (unfold pst0; by rewrite Ea). rewrite E in *.
    set (y := λ i : nat, KPoll (PSt (repeat (CEvent "j" "e") i) PStopped a [] [] [])).
    destruct (Z_of_nat_complete poll_buff ltac:(by vm_compute)) as [N EN].
    destruct (jam N y plain_call (λ x, match x with KPoll p => p_loop p = PStopped ∧ poll_buff ≤ Z.of_nat (length (p_q p)) | _ => False end)) as (tr & s & H1 & H2).
    + done.
    + intros i Hi. constructor. unfold y. pose proof (Ps_emit (PSt (repeat (CEvent "j" "e") i) PStopped a [] [] []) (CEvent "j" "e")) as St. cbn [p_q p_loop p_agg p_wr p_wd p_wb] in St.
      rewrite <- repeat_cons in St. apply St; [done|]. unfold p_room. cbn [p_q]. rewrite repeat_length. lia.
    + unfold y. cbn [p_loop p_q]. rewrite repeat_length. split; [done|]. by rewrite EN.
    + intros z z' Hz Ht. destruct z as [p| | | |]; try done. destruct Hz as [_ Hz]. inversion Ht as [? ? ? ? Hp| | | | |]; subst. inversion Hp; subst. unfold p_room in *. lia.
    + intros z cs l a0 s' Hz Hs. destruct z as [p| | | |]; try done. destruct Hz as [Hz1 Hz2].
      inversion Hs as [| |? ? k b p0 p' Ha Hk Hn Hp|? ? k b o l0 l' Ha Hk Hn Hp|? ? k b lc l0 l' Ha Hk Hn Hp|? ? k b l0 l' Ha Hk Hn Hp]; subst; eauto 10.
      all: destruct k as [|[|k]]; cbn in Hk; try done. injection Hk as <-. right. right. exists (KPoll p'). split; [done|].
      inversion Hp; subst; cbn in *; try done.
    + eapply (W _ (y 0%nat) plain_call [QPoll 0 (PShutCall 1); QPoll 0 (PShutTake 1); QPoll 0 (PShutRet 1)]); [|done|done|exact H1|exact H2].
      assert (Ps : psteps (PSt [] PRun a [] [] []) [PShutCall 1; PShutTake 1; PShutRet 1] (PSt [] PStopped a [] [] [])).
      { econstructor; [apply (Ps_shut_call (PSt [] PRun a [] [] []) 1); [done|]|]. { repeat split; try done; set_solver. }
        cbn. econstructor; [apply (Ps_shut_take [] a [] [1%nat] [] 1); left|].
        cbn. econstructor; [apply (Ps_shut_ret [] a [] [] [1%nat] 1); left|]. constructor. }
      apply (lift_poll [Caller 0 (map plain_call (seq 0 (S N)))] 0 d' r' [PShutCall 1; PShutTake 1; PShutRet 1] Hd Hr []
        [KPoll (PSt [] PRun a [] [] []); KOther []] (PSt [] PRun a [] [] []) (PSt [] PStopped a [] [] [])); [rewrite E; constructor|by repeat constructor|done|by repeat constructor|exact Ps].
  - set (y := λ i : nat, KStatsd o (LSt (repeat (SMetric (CEvent "j" "e")) i) LDone sd0 [] [])).
    destruct (Z_of_nat_complete cmdChanBuffSize ltac:(by vm_compute)) as [N EN].
    destruct (jam N y plain_call (λ x, match x with KStatsd o l => l_loop l = LDone ∧ cmdChanBuffSize ≤ Z.of_nat (length (l_q l)) | _ => False end)) as (tr & s & H1 & H2).
    + done.
    + intros i Hi. constructor. unfold y. pose proof (St_emit o (LSt (repeat (SMetric (CEvent "j" "e")) i) LDone sd0 [] []) (CEvent "j" "e")) as St.
      unfold set_q in St. cbn [l_q l_loop l_sd l_wd l_ws] in St. rewrite <- repeat_cons in St. apply St. unfold room. cbn [l_q]. rewrite repeat_length. lia.
    + unfold y. cbn [l_loop l_q]. rewrite repeat_length. split; [done|]. by rewrite EN.
    + intros z z' Hz Ht. destruct z as [|o' p| | |]; try done. destruct Hz as [_ Hz]. inversion Ht as [|? ? ? ? ? Hp| | | |]; subst. inversion Hp; subst. unfold room in *. lia.
    + intros z cs l a0 s' Hz Hs. destruct z as [|o' p| | |]; try done. destruct Hz as [Hz1 Hz2].
      inversion Hs as [| |? ? k b p0 p' Ha Hk Hn Hp|? ? k b o1 l0 l' Ha Hk Hn Hp|? ? k b lc l0 l' Ha Hk Hn Hp|? ? k b l0 l' Ha Hk Hn Hp]; subst; eauto 10.
      all: destruct k as [|[|k]]; cbn in Hk; try done. injection Hk as <- <-. right. right. exists (KStatsd o' l'). split; [done|].
      inversion Hp; subst; cbn in *; rewrite ?app_length; try done; split; try done; lia.
    + eapply (W _ (y 0%nat) plain_call [QStatsd 0 (AStopCall 1); QStatsd 0 ATake; QStatsd 0 (AStopDone 1)]); [|done|done|exact H1|exact H2].
      assert (Ps : lsteps o lst0 [AStopCall 1; ATake; AStopDone 1] (LSt [] LDone sd0 [] [])).
      { econstructor; [apply (St_stop_call o lst0 1); [by vm_compute|apply not_elem_of_nil..]|]. cbn. econstructor; [apply St_take_stop|]. cbn.
        econstructor; [apply (St_stop_done o [] sd0 [] [1%nat] 1); left|]. constructor. }
      apply (lift_statsd [Caller 0 (map plain_call (seq 0 (S N)))] 0 o [AStopCall 1; ATake; AStopDone 1]
        [KStatsd o lst0; KOther []] lst0 (LSt [] LDone sd0 [] [])); [by repeat constructor|done|by repeat constructor|exact Ps].
  - set (y := λ i : nat, KLibrato c (LGo (repeat ("j", WEvent "e") i) LbDone lib0 [])).
    destruct (Z_of_nat_complete lib_buff ltac:(by vm_compute)) as [N EN].
    destruct (jam N y plain_call (λ x, match x with KLibrato c l => go_phase l = LbDone ∧ lib_buff ≤ Z.of_nat (length (go_q l)) | _ => False end)) as (tr & s & H1 & H2).
    + done.
    + intros i Hi. constructor. unfold y. cbn [plain_call sc_cmd lib_cmd fst snd]. pose proof (Go_emit c (repeat ("j", WEvent "e") i) LbDone lib0 [] "j" (WEvent "e")) as St.
      rewrite <- repeat_cons in St. apply St. rewrite repeat_length. lia.
    + unfold y. cbn [go_phase go_q]. rewrite repeat_length. split; [done|]. by rewrite EN.
    + intros z z' Hz Ht. destruct z as [| |c' p| |]; try done. destruct Hz as [_ Hz]. inversion Ht as [| |? ? ? ? ? Hp| | |]; subst. inversion Hp; subst. cbn in *. lia.
    + intros z cs l a0 s' Hz Hs. destruct z as [| |c' p| |]; try done. destruct Hz as [Hz1 Hz2].
      inversion Hs as [| |? ? k b p0 p' Ha Hk Hn Hp|? ? k b o1 l0 l' Ha Hk Hn Hp|? ? k b lc l0 l' Ha Hk Hn Hp|? ? k b l0 l' Ha Hk Hn Hp]; subst; eauto 10.
      all: destruct k as [|[|k]]; cbn in Hk; try done. injection Hk as <- <-. right. right. exists (KLibrato c' l'). split; [done|].
      inversion Hp; subst; cbn in *; try done.
    + eapply (W _ (y 0%nat) plain_call [QLibrato 0 (GStop 1); QLibrato 0 (GStopped 1)]); [|done|done|exact H1|exact H2].
      assert (Ps : gosteps c lgo0 [GStop 1; GStopped 1] (LGo [] LbDone lib0 [])).
      { econstructor; [apply Go_stop; apply not_elem_of_nil|]. econstructor; [apply (Go_stopped c [] lib0 [1%nat] 1); left|]. constructor. }
      apply (lift_librato [Caller 0 (map plain_call (seq 0 (S N)))] 0 c [GStop 1; GStopped 1]
        [KLibrato c lgo0; KOther []] lgo0 (LGo [] LbDone lib0 [])); [by repeat constructor|done|by repeat constructor|exact Ps].
  - set (y := λ i : nat, KBugsnag (BQ (map (λ i, BCmd "j" "e" i None) (seq 0 i)) [] true)).
    destruct (jam bugsnag_chan_size y error_call (λ x, match x with KBugsnag l => q_done l = true ∧ (bugsnag_chan_size ≤ length (q_chan l))%nat | _ => False end)) as (tr & s & H1 & H2).
    + done.
    + intros i Hi. eapply Tk_bugsnag; [done|]. unfold y. rewrite seq_S, map_app. pose proof (B_enq (BQ (map (λ i, BCmd "j" "e" i None) (seq 0 i)) [] true) (BCmd "j" "e" i None)) as St.
      apply St. cbn [q_chan]. by rewrite map_length, seq_length.
    + unfold y. cbn [q_done q_chan]. by rewrite map_length, seq_length.
    + intros z z' Hz Ht. destruct z as [| | |b|]; try done. destruct Hz as [_ Hz]. inversion Ht as [| | |? ? ? ? ? He Hp| |]; subst; [|done]. inversion Hp; subst. cbn in *. lia.
    + intros z cs l a0 s' Hz Hs. destruct z as [| | |p|]; try done. destruct Hz as [Hz1 Hz2].
      inversion Hs as [| |? ? k b p0 p' Ha Hk Hn Hp|? ? k b o1 l0 l' Ha Hk Hn Hp|? ? k b lc l0 l' Ha Hk Hn Hp|? ? k b l0 l' Ha Hk Hn Hp]; subst; eauto 10.
      all: destruct k as [|[|k]]; cbn in Hk; try done. injection Hk as <-. right. right. exists (KBugsnag l'). split; [done|].
      inversion Hp; subst; cbn in *; try done.
    + eapply (W _ (y 0%nat) error_call [QBugsnag 0 BShutdown]); [|done|done|exact H1|exact H2].
      apply (lift_bugsnag [Caller 0 (map error_call (seq 0 (S bugsnag_chan_size)))] 0 [BShutdown]
        [KBugsnag bq0; KOther []] bq0 (BQ [] [] true)); [by repeat constructor|done|by repeat constructor|]. econstructor; [apply B_shutdown|constructor].
Qed.
