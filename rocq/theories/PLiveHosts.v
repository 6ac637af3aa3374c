(** * How the polls of the hosts went comes to be on healthtop's screen (C129) *)
From Verif Require Import PFair PApi PHealthdLoop PTopTable PWire2 PLiveHealthd PLiveTop PLivePolls SLive9.

Section Hosts.
  Context (hosts : list string) (x : exec hl (Z * hact)) (Hx : healthd_exec hosts x) (Hf : healthd_fair x) (Hn : never (is_act is_stop) x) (Ha : asks_fair x) (Ht : clock_right x).
  Context (srt : sorting_fn hstatus) (off : Z → Z) (fmt : Z → string) (inst : string) (y : exec (tloop (list hstatus)) (tlev (list hstatus))).
  Context (Hsrt : correct_sort srt) (Hi : good_name inst) (Hy : hosts_exec srt off fmt inst x y).
  Context (bold : string → string) (color : tcolor → string → string) (Hb : decorates bold) (Hc : ∀ c, decorates (color c)).

  Local Lemma some_inj (l l' : list hstatus) : map Some l = map Some l' → l = l'.
  Proof using. revert l'. induction l; intros [|] E; cbn in E; try done. injection E as -> E. f_equal. by apply IHl. Qed.
  Local Lemma sorted_map (l : list hstatus) : StronglySorted (λ a b, str_le (hs_hp a) (hs_hp b)) l → StronglySorted str_le (map hs_hp l).
  Proof using.
    induction 1 as [|a l _ IH H]; cbn; constructor; [done|]. apply Forall_forall. intros h Hh. rewrite elem_of_list_In in Hh. apply in_map_iff in Hh as (b&<-&Hb').
    rewrite Forall_forall in H. apply H. by rewrite elem_of_list_In.
  Qed.
  Lemma hosts_live n : ∃ m, (n < m)%nat ∧ ∀ m', (m ≤ m')%nat →
    ∃ a text head lines n' names, on_screen y m' = Some a ∧ hosts_table bold color fmt (map Some a) = Ok text ∧ is_table text (head :: lines) ∧
      map (visible false) head = host_columns ∧ (n < n' ≤ m')%nat ∧
      NoDup names ∧ (∀ h, h ∈ names ↔ h ∈ hosts) ∧ StronglySorted str_le names ∧
      Forall2 (λ h cells, ∃ k r, last_of x n' h k r ∧ (rounds_before x n ≤ k)%nat ∧ tells fmt r (map (visible false) cells)) names lines.
  Proof using All.
    destruct (pages_newer hosts x Hx Hf Hn Ha Ht n) as (m0&Hm0&Hpages).
    destruct (up_to_date y (ho_exec _ _ _ _ _ _ Hy) (ho_start _ _ _ _ _ _ Hy) m0 (ho_fair _ _ _ _ _ _ Hy) (ho_ends _ _ _ _ _ _ Hy) (ho_pages _ _ _ _ _ _ Hy)) as (m1&Hm1).
    exists (max m1 (S n)). split; [lia|]. intros k1 Hk1. destruct (Hm1 k1 ltac:(lia)) as (a&p&j&Hsc&Hp&Hj&Hans). clear Hm1.
    destruct (ho_page _ _ _ _ _ _ Hy _ _ _ Hans) as (m'&t&j'&l&Hmj&Hpm&Hret&dur&msg&e&now&body&Hdur&Hleg&Hbody&Hdec).
    assert (Hm' : (m0 ≤ m')%nat).
    { destruct (decide (m0 ≤ m')%nat) as [|Hge]; [done|]. pose proof (polls_before_le y m' m0 ltac:(lia)). lia. }
    destruct (Hpages m' t j' l Hm' Hret) as (P1&P2&P3). destruct (thm_hosts srt l Hsrt) as [S1 S2].
    set (l' := handler_hosts srt l) in *.
    assert (Hleg' : Forall (λ h, host_ok good_name off h ∧ tidy (hs_hp h) ∧ tidy (hs_err h) ∧ tidy (fmt (hs_check h))) l') by (by rewrite S1).
    destruct (PWire2.thm_hosts_page off msg inst dur l' e now Hi Hdur) as (body'&B1&B2).
    { eapply Forall_impl; [exact Hleg'|]. cbn. tauto. }
    rewrite Hbody in B1. injection B1 as <-. rewrite Hdec in B2. injection B2 as B2. apply some_inj in B2. subst a.
    destruct (thm_hosts_table bold color Hb Hc fmt l') as (text&head&lines&T1&T2&T3&T4).
    { eapply Forall_impl; [exact Hleg'|]. intros h ((_&_&_&Hz&_)&?&?&?). do 3 (split; [done|]). rewrite Forall_forall in Hz. apply Hz. right. left. }
    exists l', text, head, lines, m', (map hs_hp l'). do 4 (split; [done|]). split; [lia|].
    assert (HP : map hs_hp l' ≡ₚ map hs_hp l) by (by apply Permutation_map).
    split; [by rewrite HP|]. split; [intros h; by rewrite HP|]. split; [by apply sorted_map|].
    assert (Hin : Forall (λ hs, ∃ k r, last_of x m' (hs_hp hs) k r ∧ says hs r ∧ (rounds_before x n ≤ k)%nat) l').
    { rewrite S1. by apply Forall_forall. }
    clear -T4 Hin. induction T4 as [|hs cells l' lines Hrow _ IH]; [constructor|]. apply Forall_cons in Hin as [(k&r&Hl&Hsay&Hk) Hin].
    constructor; [|by apply IH]. exists k, r. split; [done|]. split; [done|].
    destruct Hsay as (E1&E2&E3&E4&E5&E6&E7). destruct Hrow as (st&t&Hcells&Htext&R1&R2&R3). rewrite Hcells. rewrite E2, E5, E6, E7 in *.
    exists st, t. rewrite E1. done.
  Qed.
End Hosts.
