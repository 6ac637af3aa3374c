(** * From the emissions of processes to healthtop's screen, in time (C127)

    An execution of processes and healthd (SLive4.v) together with one of
    healthtop (SLive7.v). *)
From Verif Require Export SLive4 SLive7 SScreen.

(** [x]: healthd, [y]: healthtop.  Every page that poll [i] of healthtop gets is
    what healthd wrote for some intervals a handler had got from the loop after
    the poll was started; it is legible (C121).  [height i]: the height of the
    terminal then. *)
Definition top_page (ff : f64 → string) (srt : sorting_fn ajob) (sort name inst : string) (height : Z) (l : list pagg) (a : list ajob) : Prop :=
  ∃ order dur msg e now body js,
    (∀ ov, handler_overall (map pa_ia l) = Some ov → order ≡ₚ map_to_list (ia_jobs ov)) ∧ in_int64 dur ∧
    let q := top_query sort name height in
    let page := handler_jobs srt (map pa_ia l) order (query_get q "sort") (query_get q "limit") in
    (∀ r, r ∈ default [] page → legible r) ∧
    render msg (enc_api_jobs ff inst dur page) = (200, body) ∧ top_jobs_event e body now = TResponse (map Some js) now ∧ a = top_jobs js name.
Record top_exec (ff : f64 → string) (srt : sorting_fn ajob) (sort name inst : string) (height : nat → Z)
    (x : exec hl (Z * hact)) (y : exec (tloop (list ajob)) (tlev (list ajob))) : Prop := {
  te_exec : is_exec tlstep y;
  te_start : x_at y 0%nat = tloop0;
  te_fair : loop_fair y;
  te_ends : ends_or_not y;
  te_pages : forever (happens is_page y);
  te_page : ∀ n i a, x_act y n = Some (LAnswer i (inl a)) →
    ∃ m t j l, (m ≤ n)%nat ∧ (i < polls_before y m)%nat ∧ x_act x m = Some (t, HRet j (AnsI l)) ∧ top_page ff srt sort name inst (height i) l a }.

(** the intervals are recalculated, healthd.go:139 and 147 *)
Definition recalculates (a : hact) : Prop := match a with HTakeNil _ _ | HFire _ => True | _ => False end.
(** what is published has not been purged *)
Definition unpurged (d : Z) (x : exec hl (Z * hact)) (trs : nat → list sev) : Prop := ∀ r p,
  happens (is_act recalculates) x r → p ∈ hd_pub (l_hd (x_at x (S r))) → kept d (ia_start (pa_ia p)) (trs (S r)).
