(** * Model of healthd's goroutines and channels (healthd/healthd.go:95-190,
      healthd/debouncer.go)

    A labelled transition system: the aggregation loop, the debouncer, the
    polls of every round, the API handlers and callers of Stop.  The steps are
    the completed channel operations and the reads and writes of the stop flag;
    a goroutine blocked on a channel has not taken its step yet.  Every label
    comes with the time at which it happens. *)
From Verif Require Export MHealthd.

(** ** The debouncer (debouncer.go:8-27) *)

(** where it is, with oldestNeedItDone (0 is the zero time) *)
Inductive dstate :=
  | DTop (oldest : Z)    (* 12: at the select *)
  | DChk (oldest : Z)    (* 22: at the if *)
  | DSnd (oldest : Z).   (* 23: blocked on doit *)

Inductive dact :=
  | DTake          (* 13-16: a request was received *)
  | DIdle          (* 17-20: there was none; slept *)
  | DCheck         (* 22: the clock was read and compared *)
  | DSent.         (* 23-24: the trigger was received *)

(** [now().Sub(oldest)] saturates *)
Definition since_oldest (t oldest : Z) : Z := since t oldest.

Inductive dstep (threshold : Z) : dstate → Z * dact → dstate → Prop :=
  | Db_take o t : dstep threshold (DTop o) (t, DTake) (DChk (if o =? 0 then t else o))
  | Db_idle o t : dstep threshold (DTop o) (t, DIdle) (DChk o)
  | Db_check o t :
      dstep threshold (DChk o) (t, DCheck)
        (if negb (o =? 0) && (threshold <? since_oldest t o) then DSnd o else DTop o)
  | Db_sent o t : dstep threshold (DSnd o) (t, DSent) (DTop 0).

Inductive dsteps (threshold : Z) : dstate → list (Z * dact) → dstate → Prop :=
  | Dbs_nil s : dsteps threshold s [] s
  | Dbs_cons s a s' tr s'' : dstep threshold s a s' → dsteps threshold s' tr s'' → dsteps threshold s (a :: tr) s''.

(** healthd.go:117: two seconds *)
Definition threshold : Z := 2000000000.

(** ** The rest *)

(** where the goroutine of pollAndAggregate is *)
Inductive aloop :=
  | ASel                                    (* 133: in the select *)
  | AReq                                    (* 143: blocked on recalcIntervalsRequest *)
  | AReplyI (i : nat) (out : list pagg)     (* 148: blocked on handler i's channel *)
  | AReplyH (i : nat) (out : list hstatus)  (* 150: likewise *)
  | ABye                                    (* 152: blocked on stopStopAggregator *)
  | AGone                                   (* 153: left the loop *)
  | ACrash.                                 (* a panic ended the process *)

(** what a handler asks for *)
Inductive query := QIntervals | QHosts.
#[global] Instance query_eq_dec : EqDecision query.
Proof. solve_decision. Defined.

Record hl := HL {
  l_hd : hd;
  l_loop : aloop;
  l_resp : list (nat * option resp);     (* responses, head first; with the round that sent it *)
  l_req : Z;                             (* number of elements of recalcIntervalsRequest *)
  l_deb : dstate;
  l_rounds : list (option (list string)); (* per round: hosts still to answer; None once its nil was sent *)
  l_pass : list (nat * query);           (* handlers past the flag, 175-178 / 184-187, not yet queued *)
  l_iq : list nat;                       (* intervalsChanChan *)
  l_hq : list nat;                       (* hostsChanChan *)
  l_flag : bool;                         (* stopFlag *)
  l_stop : list nat;                     (* callers blocked on stopAggregator, 97 *)
  l_bye : list nat }.                    (* callers blocked on stopStopAggregator, 98 *)

Definition hosts_of (s : hd) : list string := map fst (map_to_list (hd_status s)).

(** healthd.go:66-93 and 108-120: the first round of polls starts at once.
    (Simplification: before any request.) *)
Definition hl_init (hosts : list string) : hl :=
  let s := hd_init hosts in
  HL s ASel [] 0 (DTop 0) [Some (hosts_of s)] [] [] [] false [] [].

(** healthd.go:69-70, 111, 113: capacities *)
Definition resp_cap : Z := 64.
Definition req_cap : Z := 64.
Definition query_cap : Z := 16.

Inductive answer := AnsI (l : list pagg) | AnsH (l : list hstatus).

Inductive hact :=
  | HTick (now : hkey → Z)                    (* 134-136 *)
  | HPush (k : nat) (r : resp)                (* a poll of round k sent its response, poll.go:69 *)
  | HPushNil (k : nat)                        (* round k sent its nil, 171 *)
  | HTakeResp (k : nat) (r : resp) (t1 t2 : Z) (* 137, 141-142 *)
  | HTakeNil (k : nat) (o : rorder)           (* 137-140 *)
  | HReq                                      (* 143 *)
  | HDeb (a : dact)                           (* the debouncer's own steps *)
  | HFire (o : rorder)                        (* 145-146 and debouncer.go:23 *)
  | HRefuse (i : nat) (q : query)             (* a handler found the flag set and got nil, 175-177 / 184-186 *)
  | HCall (i : nat) (q : query)               (* a handler found the flag unset *)
  | HQueue (i : nat) (q : query)              (* it queued its channel, 179 / 188 *)
  | HTakeI (i : nat)                          (* 147 *)
  | HTakeH (i : nat) (l : list (string * hstatus)) (* 149; [l]: order of the status map *)
  | HRet (i : nat) (a : answer)               (* it received the answer, 148, 180 / 150, 189 *)
  | HStop (i : nat)                           (* Stop called: flag set, 96 *)
  | HStopTake (i : nat)                       (* 151, 97 *)
  | HStopRet (i : nat).                       (* 152, 98 *)

Definition l_out (i : nat) (l : list nat) : list nat := remove Nat.eq_dec i l.

(** handler [i] is not inside a call *)
Definition l_idle (s : hl) (i : nat) : Prop :=
  (∀ q, (i, q) ∉ l_pass s) ∧ i ∉ l_iq s ∧ i ∉ l_hq s ∧
  (∀ out, l_loop s ≠ AReplyI i out) ∧ (∀ out, l_loop s ≠ AReplyH i out).
(** nobody is in the middle of Stop under this number *)
Definition l_stopless (s : hl) (i : nat) : Prop := i ∉ l_stop s ∧ i ∉ l_bye s.

(** the state after an operation of the loop: go on with [next], or crash *)
Definition after (s : hl) (r : res hd) (next : hd → hl) : hl :=
  match r with
  | Ok h => next h
  | Crash _ => HL (l_hd s) ACrash (l_resp s) (l_req s) (l_deb s) (l_rounds s) (l_pass s) (l_iq s) (l_hq s) (l_flag s) (l_stop s) (l_bye s)
  end.

Definition with_deb (s : hl) (req : Z) (d : dstate) : hl :=
  HL (l_hd s) (l_loop s) (l_resp s) req d (l_rounds s) (l_pass s) (l_iq s) (l_hq s) (l_flag s) (l_stop s) (l_bye s).
Definition with_queue (s : hl) (q : list (nat * option resp)) (rounds : list (option (list string))) : hl :=
  HL (l_hd s) (l_loop s) q (l_req s) (l_deb s) rounds (l_pass s) (l_iq s) (l_hq s) (l_flag s) (l_stop s) (l_bye s).

Inductive hlstep : hl → Z * hact → hl → Prop :=
  | Hl_tick s t now : l_loop s = ASel →
      hlstep s (t, HTick now)
        (after s (purge (l_hd s) now) (λ h,
           HL h ASel (l_resp s) (l_req s) (l_deb s) (l_rounds s ++ [Some (hosts_of (l_hd s))])
             (l_pass s) (l_iq s) (l_hq s) (l_flag s) (l_stop s) (l_bye s)))
  | Hl_push s t k rem r : l_loop s ≠ ACrash → l_rounds s !! k = Some (Some rem) → r_hp r ∈ rem →
      Z.of_nat (length (l_resp s)) < resp_cap →
      hlstep s (t, HPush k r) (with_queue s (l_resp s ++ [(k, Some r)]) (<[k := Some (remove string_dec (r_hp r) rem)]> (l_rounds s)))
  | Hl_push_nil s t k : l_loop s ≠ ACrash → l_rounds s !! k = Some (Some []) →
      Z.of_nat (length (l_resp s)) < resp_cap →
      hlstep s (t, HPushNil k) (with_queue s (l_resp s ++ [(k, None)]) (<[k := None]> (l_rounds s)))
  | Hl_take_resp s t k r q t1 t2 : l_loop s = ASel → l_resp s = (k, Some r) :: q →
      hlstep s (t, HTakeResp k r t1 t2)
        (after s (consume (l_hd s) r t1 t2) (λ h,
           HL h AReq q (l_req s) (l_deb s) (l_rounds s) (l_pass s) (l_iq s) (l_hq s) (l_flag s) (l_stop s) (l_bye s)))
  | Hl_take_nil s t k q o : l_loop s = ASel → l_resp s = (k, None) :: q → rorder_ok (l_hd s) o →
      hlstep s (t, HTakeNil k o)
        (after s (recalc (l_hd s) o) (λ h,
           HL h ASel q (l_req s) (l_deb s) (l_rounds s) (l_pass s) (l_iq s) (l_hq s) (l_flag s) (l_stop s) (l_bye s)))
  | Hl_req s t : l_loop s = AReq → l_req s < req_cap →
      hlstep s (t, HReq)
        (HL (l_hd s) ASel (l_resp s) (l_req s + 1) (l_deb s) (l_rounds s) (l_pass s) (l_iq s) (l_hq s) (l_flag s) (l_stop s) (l_bye s))
  | Hl_deb_take s t d : l_loop s ≠ ACrash → 0 < l_req s → dstep threshold (l_deb s) (t, DTake) d →
      hlstep s (t, HDeb DTake) (with_deb s (l_req s - 1) d)
  | Hl_deb_idle s t d : l_loop s ≠ ACrash → l_req s = 0 → dstep threshold (l_deb s) (t, DIdle) d →
      hlstep s (t, HDeb DIdle) (with_deb s (l_req s) d)
  | Hl_deb_check s t d : l_loop s ≠ ACrash → dstep threshold (l_deb s) (t, DCheck) d →
      hlstep s (t, HDeb DCheck) (with_deb s (l_req s) d)
  | Hl_fire s t o d : l_loop s = ASel → dstep threshold (l_deb s) (t, DSent) d → rorder_ok (l_hd s) o →
      hlstep s (t, HFire o)
        (after (with_deb s (l_req s) d) (recalc (l_hd s) o) (λ h,
           HL h ASel (l_resp s) (l_req s) d (l_rounds s) (l_pass s) (l_iq s) (l_hq s) (l_flag s) (l_stop s) (l_bye s)))
  | Hl_refuse s t i q : l_loop s ≠ ACrash → l_flag s = true → l_idle s i → hlstep s (t, HRefuse i q) s
  | Hl_call s t i q : l_loop s ≠ ACrash → l_flag s = false → l_idle s i →
      hlstep s (t, HCall i q)
        (HL (l_hd s) (l_loop s) (l_resp s) (l_req s) (l_deb s) (l_rounds s) ((i, q) :: l_pass s) (l_iq s) (l_hq s) (l_flag s) (l_stop s) (l_bye s))
  | Hl_queue_i s t i p1 p2 : l_loop s ≠ ACrash → l_pass s = p1 ++ (i, QIntervals) :: p2 → Z.of_nat (length (l_iq s)) < query_cap →
      hlstep s (t, HQueue i QIntervals)
        (HL (l_hd s) (l_loop s) (l_resp s) (l_req s) (l_deb s) (l_rounds s) (p1 ++ p2) (l_iq s ++ [i]) (l_hq s) (l_flag s) (l_stop s) (l_bye s))
  | Hl_queue_h s t i p1 p2 : l_loop s ≠ ACrash → l_pass s = p1 ++ (i, QHosts) :: p2 → Z.of_nat (length (l_hq s)) < query_cap →
      hlstep s (t, HQueue i QHosts)
        (HL (l_hd s) (l_loop s) (l_resp s) (l_req s) (l_deb s) (l_rounds s) (p1 ++ p2) (l_iq s) (l_hq s ++ [i]) (l_flag s) (l_stop s) (l_bye s))
  | Hl_take_i s t i q : l_loop s = ASel → l_iq s = i :: q →
      hlstep s (t, HTakeI i)
        (HL (l_hd s) (AReplyI i (safe_intervals (l_hd s))) (l_resp s) (l_req s) (l_deb s) (l_rounds s) (l_pass s) q (l_hq s) (l_flag s) (l_stop s) (l_bye s))
  | Hl_take_h s t i q l : l_loop s = ASel → l_hq s = i :: q → l ≡ₚ map_to_list (hd_status (l_hd s)) →
      hlstep s (t, HTakeH i l)
        (HL (l_hd s) (AReplyH i (safe_hosts l)) (l_resp s) (l_req s) (l_deb s) (l_rounds s) (l_pass s) (l_iq s) q (l_flag s) (l_stop s) (l_bye s))
  | Hl_ret_i s t i out : l_loop s = AReplyI i out →
      hlstep s (t, HRet i (AnsI out))
        (HL (l_hd s) ASel (l_resp s) (l_req s) (l_deb s) (l_rounds s) (l_pass s) (l_iq s) (l_hq s) (l_flag s) (l_stop s) (l_bye s))
  | Hl_ret_h s t i out : l_loop s = AReplyH i out →
      hlstep s (t, HRet i (AnsH out))
        (HL (l_hd s) ASel (l_resp s) (l_req s) (l_deb s) (l_rounds s) (l_pass s) (l_iq s) (l_hq s) (l_flag s) (l_stop s) (l_bye s))
  | Hl_stop s t i : l_loop s ≠ ACrash → l_stopless s i →
      hlstep s (t, HStop i)
        (HL (l_hd s) (l_loop s) (l_resp s) (l_req s) (l_deb s) (l_rounds s) (l_pass s) (l_iq s) (l_hq s) true (i :: l_stop s) (l_bye s))
  | Hl_stop_take s t i : l_loop s = ASel → i ∈ l_stop s →
      hlstep s (t, HStopTake i)
        (HL (l_hd s) ABye (l_resp s) (l_req s) (l_deb s) (l_rounds s) (l_pass s) (l_iq s) (l_hq s) (l_flag s) (l_out i (l_stop s)) (i :: l_bye s))
  | Hl_stop_ret s t i : l_loop s = ABye → i ∈ l_bye s →
      hlstep s (t, HStopRet i)
        (HL (l_hd s) AGone (l_resp s) (l_req s) (l_deb s) (l_rounds s) (l_pass s) (l_iq s) (l_hq s) (l_flag s) (l_stop s) (l_out i (l_bye s))).

Inductive hlsteps : hl → list (Z * hact) → hl → Prop :=
  | Hls_nil s : hlsteps s [] s
  | Hls_cons s a s' tr s'' : hlstep s a s' → hlsteps s' tr s'' → hlsteps s (a :: tr) s''.
