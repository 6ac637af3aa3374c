(** * Property theorems: healthd hears from every host again and again, and
    healthtop shows it (C128, C129)

    [x] is healthd, [y] healthtop. *)
From Verif Require Import PApi PApiEx PTopTable PLivePolls PLiveHosts PLiveHostsEx SLive9.

(** ** C128: every host is asked again and again *)
(** After every moment a response of every host is taken that was asked for in a
    round that began after it. *)
Theorem C128_heard_again : ∀ hosts x n h, healthd_exec hosts x → healthd_fair x → never (is_act is_stop) x → asks_fair x → h ∈ hosts →
  ∃ m t k r t1 t2, (n < m)%nat ∧ x_act x m = Some (t, HTakeResp k r t1 t2) ∧ r_hp r = h ∧ (rounds_before x n ≤ k)%nat.
Proof. intros hosts x n h Hx Hf Hn Ha. exact (heard_again hosts x Hx Hf Hn Ha n h). Qed.
Print Assumptions C128_heard_again.
(** From some time on every page of hosts names every host once, and says of it
    what the last response says that was taken of it, and this one was asked for
    after any given moment. *)
Theorem C128_pages_up_to_date : ∀ hosts x n, healthd_exec hosts x → healthd_fair x → never (is_act is_stop) x → asks_fair x → clock_right x →
  ∃ m, (n < m)%nat ∧ ∀ m' t j l, (m ≤ m')%nat → x_act x m' = Some (t, HRet j (AnsH l)) →
    NoDup (map hs_hp l) ∧ (∀ h, h ∈ map hs_hp l ↔ h ∈ hosts) ∧
    ∀ hs, hs ∈ l → ∃ k r, last_of x m' (hs_hp hs) k r ∧ says hs r ∧ (rounds_before x n ≤ k)%nat.
Proof. intros hosts x n Hx Hf Hn Ha Ht. exact (pages_newer hosts x Hx Hf Hn Ha Ht n). Qed.
Print Assumptions C128_pages_up_to_date.
(** there is only one last response *)
Theorem C128_one_last : ∀ x m h k r k' r', last_of x m h k r → last_of x m h k' r' → k' = k ∧ r' = r.
Proof. exact last_unique. Qed.
Print Assumptions C128_one_last.

(** a host that never answers: every thirteen moments a poll fails, is taken,
    and a page of hosts is asked for *)
Example C128_example : ∃ x y, healthd_exec ["h:1"] x ∧ healthd_fair x ∧ asks_fair x ∧ never (is_act is_stop) x ∧ clock_right x ∧
  hosts_exec isort (λ _, 0) (λ _, "noon") "healthd.1" x y ∧
  (∃ t, x_act x 1%nat = Some (t, HTakeResp 0 q_resp 1000 1001)) ∧ (∃ t, x_act x 27%nat = Some (t, HTakeResp 2 q_resp 1000 1001)) ∧
  rounds_before x 20%nat = 2%nat ∧ on_screen y 12%nat = None ∧ on_screen y 13%nat = Some [q_status].
Proof. exact host_failing. Qed.

(** ** C129: healthtop's table of hosts *)
(** From some time on healthtop's table has a line for every host, in the order
    of their names, and tells how a poll of it went that began after any given
    moment: the last one that healthd had heard of at a moment after it. *)
Theorem C129_hosts_on_screen : ∀ hosts x srt off fmt inst y bold color n,
  healthd_exec hosts x → healthd_fair x → never (is_act is_stop) x → asks_fair x → clock_right x →
  correct_sort srt → good_name inst → hosts_exec srt off fmt inst x y → decorates bold → (∀ c, decorates (color c)) →
  ∃ m, (n < m)%nat ∧ ∀ m', (m ≤ m')%nat →
    ∃ a text head lines n' names, on_screen y m' = Some a ∧ hosts_table bold color fmt (map Some a) = Ok text ∧ is_table text (head :: lines) ∧
      map (visible false) head = ["Host:Port"; "Status"; "Last Checked"; "Last Response Time"] ∧ (n < n' ≤ m')%nat ∧
      NoDup names ∧ (∀ h, h ∈ names ↔ h ∈ hosts) ∧ StronglySorted str_le names ∧
      Forall2 (λ h cells, ∃ k r, last_of x n' h k r ∧ (rounds_before x n ≤ k)%nat ∧ tells fmt r (map (visible false) cells)) names lines.
Proof.
  intros hosts x srt off fmt inst y bold color n Hx Hf Hn Ha Ht Hsrt Hi Hy Hb Hc.
  exact (hosts_live hosts x Hx Hf Hn Ha Ht srt off fmt inst y Hsrt Hi Hy bold color Hb Hc n).
Qed.
Print Assumptions C129_hosts_on_screen.

(** the execution of [C128_example]: what is printed from moment 13 on *)
Example C129_screen : (λ r, match r with Ok text => visible false text | Crash x => x end) (hosts_table z_bold z_color (λ _, "noon") [Some q_status]) =
  String.concat tab_s host_columns +:+ nl_s +:+ String.concat tab_s ["h:1"; "Failure: connection refused"; "noon"; "12 ns"; ""] +:+ nl_s.
Proof. vm_compute. reflexivity. Qed.
Example C129_decorates : decorates z_bold ∧ (∀ c, decorates (z_color c)) ∧ correct_sort (@isort hstatus).
Proof. exact (conj (proj1 z_decorates) (conj (proj2 z_decorates) isort_correct)). Qed.
