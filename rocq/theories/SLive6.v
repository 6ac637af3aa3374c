(** * What should become of healthd's goroutines after Stop (C125)

    In executions without end (SFair.v). *)
From Verif Require Export SLive2.

(** polls end: within five seconds (poll.go:36-38) the response is there, and
    it is sent when there is room *)
Record polls_fair (x : exec hl (Z * hact)) : Prop := {
  pf_push : ∀ k h, weakly_fair hlstep (is_act (λ a, ∃ r, a = HPush k r ∧ r_hp r = h)) x;
  pf_nil : ∀ k, weakly_fair hlstep (is_act (λ a, a = HPushNil k)) x }.
(** goroutines of polls that have not ended: one for each host that has not
    answered, and one for the round *)
Fixpoint polls_left (l : list (option (list string))) : nat :=
  match l with
  | [] => 0
  | Some rem :: l => S (length rem) + polls_left l
  | None :: l => polls_left l
  end%nat.
(** Stop has returned *)
Definition stopped (s : hl) : Prop := l_loop s = AGone.
