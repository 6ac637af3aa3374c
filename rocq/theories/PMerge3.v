(** * Counterexamples about Merge *)
From Verif Require Import MMerge SMerge PAgg PContent PAgg2 PMerge PMerge2.

(** host 1: job "j" ran an event but has not completed; host 2: it completed
    once, in 5 ns *)
Definition cx_h1 : list (Z * aop) := [(10, OpCmd (CEvent "j" "e"))].
Definition cx_h2 : list (Z * aop) := [(11, OpCmd (CComplete "j" Success 5))].
Definition cx_i1 : ia := ia_of 0 [CEvent "j" "e"].
Definition cx_i2 : ia := ia_of 0 [CComplete "j" Success 5].

Lemma cx_r1 : reports 60 300 cx_h1 20 0 cx_i1.
Proof.
  split; [unfold clock_monotone; simpl; repeat constructor; lia|].
  exists [cx_i1]. split; [vm_compute; reflexivity|]. split; [by left|done].
Qed.
Lemma cx_r2 : reports 60 300 cx_h2 20 0 cx_i2.
Proof.
  split; [unfold clock_monotone; simpl; repeat constructor; lia|].
  exists [cx_i2]. split; [vm_compute; reflexivity|]. split; [by left|done].
Qed.

Lemma thm_min_wrong :
  ∃ h1 h2 i1 i2 ja,
    reports 60 300 h1 20 0 i1 ∧ reports 60 300 h2 20 0 i2 ∧
    ia_jobs (merge_all 0 [i1; i2]) !! "j" = Some ja ∧
    map snd (completions_of (of_job "j" (cmds_in 60 0 h1 ++ cmds_in 60 0 h2))) = [5] ∧
    t_count (j_timer ja) = 1 ∧ t_min (j_timer ja) = 0 ∧
    ia_jobs (merge_all 0 [i2; i1]) !! "j" = Some (JobAgg (j_maps ja) (Timer 1 5 (fofZ 25) 0 5) 1 0 0 0 0).
Proof.
  exists cx_h1, cx_h2, cx_i1, cx_i2.
  eexists. split; [apply cx_r1|]. split; [apply cx_r2|].
  split; [vm_compute; reflexivity|]. vm_compute. auto 10.
Qed.

(** three hosts, one timing each *)
Definition cx_ss (n : Z) : ia := ia_of 0 [CTiming "j" "t" n].

Lemma cx_ss_reports n : reports 60 300 [(10, OpCmd (CTiming "j" "t" n))] 20 0 (cx_ss n).
Proof.
  split; [unfold clock_monotone; simpl; repeat constructor; lia|].
  exists [cx_ss n]. split; [reflexivity|]. split; [by left|done].
Qed.

Lemma thm_ss_order :
  ∃ n1 n2 n3 i1 i2 i3,
    reports 60 300 [(10, OpCmd (CTiming "j" "t" n1))] 20 0 i1 ∧
    reports 60 300 [(10, OpCmd (CTiming "j" "t" n2))] 20 0 i2 ∧
    reports 60 300 [(10, OpCmd (CTiming "j" "t" n3))] 20 0 i3 ∧
    t_ss <$> am_timers (ia_maps (merge_all 0 [i1; i2; i3])) !! "t" = Some (fofZ 9007199515875290) ∧
    t_ss <$> am_timers (ia_maps (merge_all 0 [i3; i1; i2])) !! "t" = Some (fofZ 9007199515875288) ∧
    fofZ 9007199515875290 ≠ fofZ 9007199515875288.
Proof.
  exists 1, 1, 94906267, (cx_ss 1), (cx_ss 1), (cx_ss 94906267).
  do 3 (split; [apply cx_ss_reports|]).
  split; [vm_compute; reflexivity|]. split; [vm_compute; reflexivity|]. vm_compute. congruence.
Qed.
