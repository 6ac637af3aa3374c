(** * From a call in a goroutine to healthtop's screen (C131) *)
From Verif Require Import PFair PLiveSystem PLivePolls PLiveScreen PLiveTop PSystem SLive10.
From Verif Require PLiveProcess PConserve.

Definition heard_op (e : sev) : Prop := match e with SProc _ _ _ => False | _ => True end.
Global Instance heard_op_dec e : Decision (heard_op e).
Proof. destruct e; cbn; apply _. Defined.

Lemma sys_length ff d P zone tr ops : sys ff d P zone tr ops → length ops = length (filter heard_op tr).
Proof.
  induction 1; rewrite ?filter_app, ?app_length; [done| | | | |]; cbn in *.
  all: rewrite ?decide_True by done; rewrite ?decide_False by tauto; cbn; lia.
Qed.

Section Whole.
  Context (ff : f64 → string) (d : Z) (P : nat → proc) (zone : N) (hosts : list string) (x : exec hl (Z * hact)) (trs : nat → list sev).
  Context (Hs : system_exec ff d P zone x trs).
  (** a step of healthd takes one answer *)
  Lemma answer_heard n i k s : takes_answer x trs n i k → s ∈ listed d (p_retain (P i)) (take (S k) (hist i (trs (S n)))) → heard d P (trs (S n)) i s k.
  Proof using Hs.
    intros [(t&k0&r&t1&t2&Ha) Hin] Hl. destruct (se_grows _ _ _ _ _ _ Hs n) as (e&Ee).
    rewrite Ee, drop_app in Hin. apply elem_of_list_split in Hin as (e1&e2&->).
    pose proof (sys_length _ _ _ _ _ _ (se_sys _ _ _ _ _ _ Hs n)) as L1. pose proof (sys_length _ _ _ _ _ _ (se_sys _ _ _ _ _ _ Hs (S n))) as L2.
    rewrite acts_S, Ha in L2. unfold ops in L1, L2. rewrite omap_app, app_length in L2. cbn in L2.
    rewrite Ee, !filter_app, !app_length, filter_cons_True in L2 by done. cbn in L2.
    unfold heard. exists (trs n ++ e1), e2. split; [by rewrite Ee, <- app_assoc|]. split; [done|].
    intros k' Hk'. exfalso. assert (Hf : SRecv i k' ∈ filter heard_op e2) by (by apply elem_of_list_filter).
    destruct (filter heard_op e2) as [|? ?]; [by apply elem_of_nil in Hf|]. cbn in L2. lia.
  Qed.

  Context (i k : nat) (progs : list (list MProcess.scall)) (ks : list MProcess.ksink) (z : exec MProcess.proc MProcess.qact).
  Context (Hd : 0 < d) (Hz : process_of d P trs i k progs ks z).
  (** the loop of the sink processes every call *)
  Lemma call_processed g prog c : progs !! g = Some prog → c ∈ SProcess.tells_sink k prog →
    ∃ j t0 b, ∀ n, (b ≤ n)%nat → hist i (trs n) !! j = Some (t0, OpCmd c).
  Proof using Hs Hd Hz.
    intros Hg Hc.
    destruct (PLiveProcess.process_polled progs ks z (pr_exec _ _ _ _ _ _ _ _ Hz) (pr_fair _ _ _ _ _ _ _ _ Hz) (pr_stop _ _ _ _ _ _ _ _ Hz)
      k d (p_retain (P i)) (pr_sink _ _ _ _ _ _ _ _ Hz) Hd (po_retain _ _ _ (se_ok _ _ _ _ _ _ Hs 0%nat) i)) as (m&_&Hp).
    assert (Hin : c ∈ SPolling.poll_processed (SProcess.poll_part k (acts z m))).
    { rewrite Hp. apply elem_of_list_In, in_concat. exists (SProcess.tells_sink k prog). split; [|by apply elem_of_list_In].
      apply in_map_iff. exists prog. split; [done|]. by eapply elem_of_list_In, elem_of_list_lookup_2. }
    assert (Hh : ∃ t0, (t0, OpCmd c) ∈ hist i (trs m)).
    { rewrite (pr_hist _ _ _ _ _ _ _ _ Hz). unfold SPolling.poll_processed in Hin. apply elem_of_list_omap in Hin as (a&Ha&E).
      destruct a; try done. injection E as ->. exists t. unfold SPolling.poll_history. apply elem_of_list_omap. eexists. split; [exact Ha|done]. }
    destruct Hh as (t0&Hh). apply elem_of_list_lookup in Hh as (j&Hj). exists j, t0, m. intros n Hn.
    destruct (trs_le ff d P zone x trs Hs m n Hn) as (e&->). rewrite hist_app. by apply lookup_app_l_Some.
  Qed.

  Context (Hx : healthd_exec hosts x) (Hf : healthd_fair x) (Hn : never (is_act is_stop) x) (Ha : asks_fair x).
  Context (n0 : nat) (Hans : answers P x trs i n0) (Hhost : p_hp (P i) ∈ hosts).
  Lemma answer_after j t0 o b : (∀ n, (b ≤ n)%nat → hist i (trs n) !! j = Some (t0, o)) →
    ∀ n, ∃ n' k', (n < n')%nat ∧ takes_answer x trs n' i k' ∧ (j < k')%nat.
  Proof using Hx Hf Hn Ha Hans Hhost.
    intros Hj n. set (b' := max n (max b n0)).
    destruct (heard_again hosts x Hx Hf Hn Ha b' (p_hp (P i)) Hhost) as (m&t&k0&r&t1&t2&Hm&Hact&Hr&Hk).
    assert (Hb : ∀ b, (b ≤ b')%nat → (rounds_before x b ≤ k0)%nat).
    { intros b1 Hb1. enough (rounds_before x b1 ≤ rounds_before x b')%nat by lia. unfold rounds_before.
      destruct (acts_le x b1 b' Hb1) as (l&->). rewrite omap_app, app_length. lia. }
    destruct (Hans m t k0 r t1 t2 Hact Hr (Hb n0 ltac:(unfold b'; lia))) as (k'&Hin&Hk').
    exists m, k'. split; [unfold b' in *; lia|]. split; [split; [by eauto 10|done]|].
    specialize (Hk' b (Hb b ltac:(unfold b'; lia))). pose proof (lookup_lt_Some _ _ _ (Hj b ltac:(lia))). lia.
  Qed.

  Context (Hff : float_codec ff) (H64 : in_int64 d) (Ht : time_passes x) (Hio : ∀ n, in_order (trs n)) (Hup : unpurged d x trs).
  Context (srt : sorting_fn ajob) (sort name inst : string) (height : nat → Z) (y : exec (tloop (list ajob)) (tlev (list ajob))).
  Context (Hsrt : correct_sort srt) (Hi : good_name inst) (Hh : ∀ i, height i < 2 ^ 63).
  Context (Hy : top_exec ff srt sort name inst height x y).
  Context (bold : string → string) (color : tcolor → string → string) (Hb : decorates bold) (Hc : ∀ c, decorates (color c)).
  Lemma whole_way g prog c : progs !! g = Some prog → c ∈ SProcess.tells_sink k prog → occurs name (cmd_job c) →
    ∃ j t0 b, (∀ n, (b ≤ n)%nat → hist i (trs n) !! j = Some (t0, OpCmd c)) ∧
      (∀ n, ∃ n' k', (n < n')%nat ∧ takes_answer x trs n' i k' ∧ (j < k')%nat) ∧
      ∀ n k', takes_answer x trs n i k' → (j < k')%nat → slot d t0 ∈ listed d (p_retain (P i)) (take (S k') (hist i (trs (S n)))) →
        ∃ m, (n < m)%nat ∧ ∀ m', (m ≤ m')%nat → kept d (slot d t0) (trs m') →
          shows_job d P x trs name height y bold color (cmd_job c) i (slot d t0) k' n m'.
  Proof using All.
    intros Hg Hin Hocc. destruct (call_processed g prog c Hg Hin) as (j&t0&b&Hj). exists j, t0, b. split; [done|]. split; [by eapply answer_after|].
    intros n k' Htk Hk' Hl. pose proof (answer_heard n i k' (slot d t0) Htk Hl) as Hhe. destruct Htk as [(t&k0&r&t1&t2&Hact) Hrecv].
    assert (Hlt : (k' < length (hist i (trs (S n))))%nat).
    { eapply recv_given; [exact (se_sys _ _ _ _ _ _ Hs (S n))|]. destruct (se_grows _ _ _ _ _ _ Hs n) as (e&Ee). rewrite Ee in *. rewrite drop_app in Hrecv. apply elem_of_app. by right. }
    assert (Hjn : hist i (trs (S n)) !! j = Some (t0, OpCmd c)).
    { pose proof (Hj (max b (S n)) ltac:(lia)) as H1. destruct (trs_le ff d P zone x trs Hs (S n) (max b (S n)) ltac:(lia)) as (e&Ee).
      rewrite Ee, hist_app, lookup_app_l in H1 by lia. done. }
    apply (screen_live ff d P zone hosts x trs Hff H64 Hd Hx Hf Ht Hn Hs Hio Hup srt sort name inst height y Hsrt Hi Hh Hy bold color Hb Hc n t k0 r t1 t2 i _ k' _ Hact Hhe); [|done].
    assert (Hm : c ∈ of_job (cmd_job c) (cmds_in d (slot d t0) (take k' (hist i (trs (S n)))))).
    { apply elem_of_list_filter. split; [done|]. unfold cmds_in. apply elem_of_list_omap. exists (t0, OpCmd c). split.
      - apply elem_of_list_lookup. exists j. by rewrite lookup_take.
      - cbn. by rewrite bool_decide_true by (by apply PConserve.slot_bounds). }
    intros E. rewrite E in Hm. by apply elem_of_nil in Hm.
  Qed.
End Whole.
