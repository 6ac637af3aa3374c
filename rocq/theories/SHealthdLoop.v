(** * What healthd's goroutines should do (C62-C65, C80-C82)

    In terms of traces, i.e. lists of completed actions with their times. *)
From Verif Require Export SHealthd MHealthdLoop.

(** times of a trace never decrease, and come after Go's zero time *)
Definition clock_runs {A} (tr : list (Z * A)) : Prop :=
  StronglySorted Z.le (map fst tr) ∧ ∀ t, t ∈ map fst tr → 0 < t.

(** ** The debouncer *)

(** the times at which requests were received since the last trigger *)
Definition pending (tr : list (Z * dact)) : list Z :=
  fold_left (λ acc a, match a.2 with DTake => acc ++ [a.1] | DSent => [] | _ => acc end) tr [].
(** the oldest of them is more than [th] old at time [t] *)
Definition overdue (th : Z) (tr : list (Z * dact)) (t : Z) : Prop :=
  ∃ r rest, pending tr = r :: rest ∧ r + th < t.

(** the debouncer's part of a trace of the whole system *)
Definition deb_part (tr : list (Z * hact)) : list (Z * dact) :=
  omap (λ a, match a.2 with HDeb d => Some (a.1, d) | HFire _ => Some (a.1, DSent) | _ => None end) tr.

(** ** The aggregation loop *)

(** operations performed on the aggregation state *)
Definition ops (tr : list (Z * hact)) : list hop :=
  omap (λ a, match a.2 with
    | HTick now => Some (HPurge now)
    | HTakeResp _ r t1 t2 => Some (HResp r t1 t2)
    | HTakeNil _ o | HFire o => Some (HRecalc o)
    | _ => None
    end) tr.

(** the loop waits to send a request to the debouncer, which waits to send a
    trigger to the loop *)
Definition wedged (s : hl) : Prop := l_loop s = AReq ∧ l_req s = 64 ∧ ∃ o, l_deb s = DSnd o.

(** responses taken since the debouncer last found no request *)
Definition taken_since_idle (tr : list (Z * hact)) : Z :=
  fold_left (λ n a, match a.2 with HTakeResp _ _ _ _ => n + 1 | HDeb DIdle => 0 | _ => n end) tr 0.

(** responses of round [k] taken by the loop *)
Definition taken_of (k : nat) (tr : list (Z * hact)) : list resp :=
  omap (λ a, match a.2 with HTakeResp k' r _ _ => if decide (k' = k) then Some r else None | _ => None end) tr.

(** the call handler [i] is waiting for at the end of the trace *)
Definition open_call (i : nat) (tr : list (Z * hact)) : option query :=
  fold_left (λ o a, match a.2 with
    | HCall j q => if decide (j = i) then Some q else o
    | HRet j _ => if decide (j = i) then None else o
    | _ => o
    end) tr None.

(** the loop has accepted a Stop *)
Definition stop_taken (tr : list (Z * hact)) : Prop := ∃ t i, (t, HStopTake i) ∈ tr.

(** steps that need nothing from outside: no poll, no tick, no new caller *)
Definition internal (a : hact) : Prop :=
  match a with HReq | HDeb _ | HFire _ | HQueue _ _ | HTakeI _ | HTakeH _ _ | HRet _ _ => True | _ => False end.
