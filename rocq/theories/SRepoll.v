(** * What healthd should hold, whatever serial numbers it is given (C52)

    An entry whose serial number is that of the entry held is taken for the
    same one. *)
From Verif Require Export SHealthd.

#[global] Instance counted_dec tr r : Decision (counted tr r).
Proof. unfold counted. destruct (conf_dur tr); apply _. Defined.

(** the entries about [key] in the responses of [tr] that count, in order;
    [before] is what happened before [tr] *)
Fixpoint entries (before tr : list hop) (key : hkey) : list dagg :=
  match tr with
  | [] => []
  | op :: tr' =>
      match op with HResp r _ _ => if decide (counted before r) then reports_at r key else [] | _ => [] end ++
      entries (before ++ [op]) tr' key
  end.
(** [d] stays of [l]: the entries after it have its serial number, the one
    before it has another *)
Definition stays (l : list dagg) (d : dagg) : Prop :=
  ∃ l1 l2, l = l1 ++ d :: l2 ∧ (∀ x, x ∈ l2 → ia_serial (d_ia x) = ia_serial (d_ia d)) ∧
    ∀ x, last l1 = Some x → ia_serial (d_ia x) ≠ ia_serial (d_ia d).
