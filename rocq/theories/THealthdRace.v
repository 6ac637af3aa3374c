(** * Property theorems: healthd's goroutines and the duration on its pages (C123, C124)

    [reaches hosts tr s]: a healthd with [hosts] hosts gets to [s]. *)
From Verif Require Import SHealthdRace PHealthdRace.

(** ** C123: healthd's goroutines do not race *)
(** A handler reads the interval duration while the loop sets it. *)
Theorem C123_duration_race_refuted : ∃ hosts tr s i, reaches hosts tr s ∧ race_at s ALoop (AHandler i) LDur.
Proof. destruct hr_race as (tr&s&H). exists 1%nat, tr, s, 3%nat. exact H. Qed.
Print Assumptions C123_duration_race_refuted.
(** That is the only race, and it is over when the duration is known. *)
Theorem C123_no_other_race_partial : ∀ hosts tr s a b l, reaches hosts tr s → race_at s a b l →
  a = ALoop ∧ (∃ i, b = AHandler i) ∧ l = LDur ∧ hr_dur s = 0.
Proof. exact thm_race. Qed.
Print Assumptions C123_no_other_race_partial.
Theorem C123_duration_kept : ∀ hosts tr s tr' s', reaches hosts tr s → hr_dur s ≠ 0 → hrsteps s tr' s' → hr_dur s' = hr_dur s.
Proof. exact thm_dur_kept. Qed.
Print Assumptions C123_duration_kept.
(** what the goroutines access *)
Example C123_accesses :
  map lop_acc (consume_ops (PResp 5 0 true 60)) = [Rd LHosts; Rd (LResp 5); Rd (LStatus 0); Wr (LStatus 0); Rd LDur] ∧
  map lop_acc (consume_ops (PResp 5 0 false 60)) = [Rd LHosts; Rd (LResp 5); Rd (LStatus 0); Wr (LStatus 0)] ∧
  map lop_acc (purge_ops []) = [Rd LDur; Rd LStored; Wr LStored; Rd LPub; Rd LMax; Wr LPub] ∧
  map lop_acc (make_ops QHosts 2 7) = [Rd LHosts; Rd (LPort 0); Rd (LStatus 0); Rd (LPort 1); Rd (LStatus 1); Wr (LSnap 7)].
Proof. split; [reflexivity|]. split; [reflexivity|]. split; reflexivity. Qed.

(** ** C124: the interval duration on a page is that of its intervals *)
Theorem C124_page_duration : ∀ hosts tr s i ds d, reaches hosts tr s → HPage i ds d ∈ tr → ∀ d', d' ∈ ds → d' = d ∧ d ≠ 0.
Proof. exact thm_page. Qed.
Print Assumptions C124_page_duration.
(** a page without intervals may have a duration *)
Example C124_example : ∃ tr s, reaches 1 tr s ∧ HPage 3 [] 60 ∈ tr ∧ HPage 4 [60] 60 ∈ tr.
Proof. exact hr_pages. Qed.
