(** * Executions without end, and fairness

    Of any labelled transition system. *)
From Verif Require Export Base.

Section Fair.
  Context {S A : Type} (step : S → A → S → Prop).

  (** what is the case at each moment and what happens next; None: nothing *)
  Record exec := Exec { x_at : nat → S; x_act : nat → option A }.
  Definition is_exec (x : exec) : Prop := ∀ n,
    match x_act x n with
    | Some a => step (x_at x n) a (x_at x (Datatypes.S n))
    | None => x_at x (Datatypes.S n) = x_at x n
    end.
  (** the first [n] moments *)
  Definition acts (x : exec) (n : nat) : list A := omap (x_act x) (seq 0 n).

  Definition happens (P : A → Prop) (x : exec) (n : nat) : Prop := ∃ a, x_act x n = Some a ∧ P a.
  Definition possible (P : A → Prop) (s : S) : Prop := ∃ a s', P a ∧ step s a s'.

  (** what stays possible happens: again and again it happens or is not possible *)
  Definition weakly_fair (P : A → Prop) (x : exec) : Prop :=
    ∀ n, ∃ m, (n ≤ m)%nat ∧ (happens P x m ∨ ¬ possible P (x_at x m)).
  (** what is possible again and again, as long as it does not happen, happens *)
  Definition strongly_fair (P : A → Prop) (x : exec) : Prop :=
    ∀ n, (∀ k, (n ≤ k)%nat → ∃ m, (k ≤ m)%nat ∧ (possible P (x_at x m) ∨ ∃ j, (n ≤ j ≤ m)%nat ∧ happens P x j)) →
      ∃ m, (n ≤ m)%nat ∧ happens P x m.
  (** never *)
  Definition never (P : A → Prop) (x : exec) : Prop := ∀ n, ¬ happens P x n.
  (** again and again *)
  Definition forever (Q : nat → Prop) : Prop := ∀ n, ∃ m, (n ≤ m)%nat ∧ Q m.
End Fair.
Arguments exec : clear implicits.
