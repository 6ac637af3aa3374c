(** * Memory accesses of healthd, goroutine by goroutine

    The goroutines of healthd.go, poll.go and api.go cut into steps, each with
    the shared memory it reads or writes.  Objects are taken whole (that the
    snapshots share nothing with the rest is C102); what an operation does is
    kept as far as the interval duration depends on it.  The channels have no
    limits here, and which responses a purge or a recalculation concerns is
    left open: more executions than those of the code. *)
From Verif Require Export Base.

Inductive loc :=
  | LDur                     (* hd.intervalDuration *)
  | LMax                     (* hd.maxIntervals *)
  | LHosts                   (* the map hd.hostStatus *)
  | LPort (h : nat)          (* HostPort of host [h]'s HostStatus *)
  | LStatus (h : nat)        (* the other fields of it *)
  | LStored                  (* the map hd.hostAggregations *)
  | LNeed                    (* the map hd.intervalsNeedingRecalculation *)
  | LPub                     (* the slice hd.intervalAggregations *)
  | LMerged                  (* what it points to *)
  | LResp (p : nat)          (* the pollResponse of poll [p] and what it points to *)
  | LSnap (n : nat).         (* snapshot [n] made for a handler *)
Inductive acc := Rd (l : loc) | Wr (l : loc).
Global Instance loc_dec : EqDecision loc. Proof. solve_decision. Defined.
Global Instance acc_dec : EqDecision acc. Proof. solve_decision. Defined.

(** the response of a poll: which poll, of which host, whether the code is 200
    without an error, and its IntervalDuration *)
Record presp := PResp { rp_poll : nat; rp_host : nat; rp_good : bool; rp_dur : Z }.

(** ** The loop *)
(** steps of its operations: a mere access, or one that matters *)
Inductive lop :=
  | OAcc (a : acc)
  | ODur (r : presp)             (* 239: if hd.intervalDuration == 0 *)
  | OSetDur (d : Z)              (* 240 *)
  | OStore (r : presp)           (* 259 *)
  | OPurge (keep : list presp)   (* 270: these are kept *)
  | OPublish (ds : list Z).      (* 301, 315-328: intervals merged from responses with these durations *)
Inductive query := QIntervals | QHosts.
Inductive lphase :=
  | LSel                                  (* 133: in the select *)
  | LDo (l : list lop)                    (* in an operation *)
  | LMake (i : nat) (q : query) (n : nat) (l : list lop)  (* 148, 150: making snapshot [n] for handler [i] *)
  | LSend (i n : nat) (ds : list Z)       (* 148, 150: blocked on its channel *)
  | LCrash.                               (* 241: division by zero *)
Definition lop_acc (x : lop) : acc :=
  match x with
  | OAcc a => a
  | ODur _ => Rd LDur
  | OSetDur _ => Wr LDur
  | OStore _ | OPurge _ => Wr LStored
  | OPublish _ => Wr LPub
  end.
(** healthd.go:249-262, for one interval of the response; [known]: the
    responses whose objects are in the map *)
Definition store_ops (r : presp) (known : list presp) : list lop :=
  OAcc (Rd (LResp (rp_poll r))) :: OAcc (Rd LStored) :: map (λ x, OAcc (Rd (LResp (rp_poll x)))) known ++ [OStore r; OAcc (Wr LNeed)].
(** healthd.go:213-238 *)
Definition consume_ops (r : presp) : list lop :=
  [OAcc (Rd LHosts); OAcc (Rd (LResp (rp_poll r))); OAcc (Rd (LStatus (rp_host r))); OAcc (Wr (LStatus (rp_host r)))] ++
  (if rp_good r then [ODur r] else []).
(** healthd.go:266-278 *)
Definition purge_ops (keep : list presp) : list lop :=
  [OAcc (Rd LDur); OAcc (Rd LStored); OPurge keep; OAcc (Rd LPub); OAcc (Rd LMax); OAcc (Wr LPub)].
(** healthd.go:280-303 *)
Definition recalc_ops (known : list presp) (ds : list Z) : list lop :=
  [OAcc (Rd LNeed); OAcc (Rd LStored)] ++ map (λ x, OAcc (Rd (LResp (rp_poll x)))) known ++
  [OAcc (Wr LMerged); OAcc (Rd LPub); OAcc (Rd LMerged); OPublish ds; OAcc (Rd LMax); OAcc (Wr LNeed)].
(** healthd.go:192-211 *)
Definition make_ops (q : query) (hosts : nat) (n : nat) : list lop :=
  match q with
  | QIntervals => [OAcc (Rd LPub); OAcc (Rd LMerged); OAcc (Wr (LSnap n))]
  | QHosts => OAcc (Rd LHosts) :: concat (map (λ h, [OAcc (Rd (LPort h)); OAcc (Rd (LStatus h))]) (seq 0 hosts)) ++ [OAcc (Wr (LSnap n))]
  end.

(** ** The polls *)
Inductive pphase :=
  | PPort (h : nat)        (* 167: about to read hs.HostPort *)
  | PFill (h : nat)        (* poll.go:29-67: filling in its response *)
  | PSend (r : presp)      (* poll.go:69: blocked on responses *)
  | PDone.
(** the goroutine of a round, healthd.go:161-172 *)
Inductive rphase := RNew | RWait (ps : list nat) | RDone.

(** ** The handlers *)
Inductive hphase :=
  | HIdle
  | HAsk (q : query)                 (* 179-180, 188-189: queued *)
  | HRead (n : nat) (ds : list Z)    (* has its snapshot, about to go through it (api.go:144, 154-157) or to sort it (167) *)
  | HDur (ds : list Z).              (* api.go:136, 146, 159, 169: about to read hd.intervalDuration *)

Record hr := HR {
  hr_hosts : nat;                     (* number of hosts *)
  hr_dur : Z;                         (* hd.intervalDuration *)
  hr_loop : lphase;
  hr_resp : list (option presp);      (* responses *)
  hr_stored : list presp;             (* whose objects are in hd.hostAggregations *)
  hr_pub : list Z;                    (* durations of the responses merged into hd.intervalAggregations *)
  hr_snaps : nat;                     (* snapshots made so far *)
  hr_rounds : list rphase;
  hr_polls : list pphase;
  hr_handlers : nat → hphase }.
Definition hr0 (hosts : nat) : hr := HR hosts 0 LSel [] [] [] 0 [RNew] [] (λ _, HIdle).

Definition set_loop (s : hr) (l : lphase) : hr := HR (hr_hosts s) (hr_dur s) l (hr_resp s) (hr_stored s) (hr_pub s) (hr_snaps s) (hr_rounds s) (hr_polls s) (hr_handlers s).
Definition set_handler (s : hr) (i : nat) (h : hphase) : hr :=
  HR (hr_hosts s) (hr_dur s) (hr_loop s) (hr_resp s) (hr_stored s) (hr_pub s) (hr_snaps s) (hr_rounds s) (hr_polls s)
    (λ j, if decide (j = i) then h else hr_handlers s j).

(** what happens that can be noticed: handler [i] writes a page with intervals
    merged from responses with durations [ds], and interval_duration [d] *)
Inductive hlab := HPage (i : nat) (ds : list Z) (d : Z) | HOther.

(** the effect of a step of an operation; what is left of it *)
Definition lop_step (s : hr) (x : lop) (l : list lop) : hr * option (list lop) :=
  match x with
  | OAcc _ => (s, Some l)
  | ODur r =>
      (s, if hr_dur s =? 0 then Some (OSetDur (rp_dur r) :: OAcc (Rd LDur) :: OAcc (Wr LMax) :: store_ops r (hr_stored s) ++ l)
          else if hr_dur s =? rp_dur r then Some (store_ops r (hr_stored s) ++ l)
          else Some (OAcc (Rd LDur) :: l))                                    (* 242-244 *)
  | OSetDur d =>
      (HR (hr_hosts s) d (hr_loop s) (hr_resp s) (hr_stored s) (hr_pub s) (hr_snaps s) (hr_rounds s) (hr_polls s) (hr_handlers s),
       if d =? 0 then None else Some l)
  | OStore r => (HR (hr_hosts s) (hr_dur s) (hr_loop s) (hr_resp s) (r :: hr_stored s) (hr_pub s) (hr_snaps s) (hr_rounds s) (hr_polls s) (hr_handlers s), Some l)
  | OPurge keep => (HR (hr_hosts s) (hr_dur s) (hr_loop s) (hr_resp s) keep (hr_pub s) (hr_snaps s) (hr_rounds s) (hr_polls s) (hr_handlers s), Some l)
  | OPublish ds => (HR (hr_hosts s) (hr_dur s) (hr_loop s) (hr_resp s) (hr_stored s) ds (hr_snaps s) (hr_rounds s) (hr_polls s) (hr_handlers s), Some l)
  end.
Definition lop_next (f : list lop → lphase) (l : option (list lop)) : lphase :=
  match l with Some [] => LSel | Some l => f l | None => LCrash end.

Inductive hrstep : hr → hlab → hr → Prop :=
  (* 134-136 *)
  | Hr_tick s keep : hr_loop s = LSel → keep ⊆ hr_stored s →
      hrstep s HOther (HR (hr_hosts s) (hr_dur s) (LDo (purge_ops keep)) (hr_resp s) (hr_stored s) (hr_pub s) (hr_snaps s)
        (hr_rounds s ++ [RNew]) (hr_polls s) (hr_handlers s))
  (* 137-142 *)
  | Hr_take s r q : hr_loop s = LSel → hr_resp s = Some r :: q →
      hrstep s HOther (HR (hr_hosts s) (hr_dur s) (LDo (consume_ops r)) q (hr_stored s) (hr_pub s) (hr_snaps s) (hr_rounds s) (hr_polls s) (hr_handlers s))
  | Hr_take_nil s q ds : hr_loop s = LSel → hr_resp s = None :: q → ds ⊆ map rp_dur (hr_stored s) ++ hr_pub s →
      hrstep s HOther (HR (hr_hosts s) (hr_dur s) (LDo (recalc_ops (hr_stored s) ds)) q (hr_stored s) (hr_pub s) (hr_snaps s) (hr_rounds s) (hr_polls s) (hr_handlers s))
  (* 145-146 *)
  | Hr_fire s ds : hr_loop s = LSel → ds ⊆ map rp_dur (hr_stored s) ++ hr_pub s → hrstep s HOther (set_loop s (LDo (recalc_ops (hr_stored s) ds)))
  (* 147, 149 *)
  | Hr_serve s i q : hr_loop s = LSel → hr_handlers s i = HAsk q →
      hrstep s HOther (HR (hr_hosts s) (hr_dur s) (LMake i q (hr_snaps s) (make_ops q (hr_hosts s) (hr_snaps s))) (hr_resp s) (hr_stored s) (hr_pub s)
        (S (hr_snaps s)) (hr_rounds s) (hr_polls s) (hr_handlers s))
  (* the steps of an operation *)
  | Hr_do s x l : hr_loop s = LDo (x :: l) →
      hrstep s HOther (set_loop (lop_step s x l).1 (lop_next LDo (lop_step s x l).2))
  | Hr_make s i q n a l : hr_loop s = LMake i q n (OAcc a :: l) → hrstep s HOther (set_loop s (LMake i q n l))
  | Hr_made s i q n : hr_loop s = LMake i q n [] →
      hrstep s HOther (set_loop s (LSend i n (match q with QIntervals => hr_pub s | QHosts => [] end)))
  | Hr_send s i n ds : hr_loop s = LSend i n ds → hrstep s HOther (set_handler (set_loop s LSel) i (HRead n ds))
  (* 161-172: the goroutine of a round *)
  | Hr_round s k : hr_loop s ≠ LCrash → hr_rounds s !! k = Some RNew →
      hrstep s HOther (HR (hr_hosts s) (hr_dur s) (hr_loop s) (hr_resp s) (hr_stored s) (hr_pub s) (hr_snaps s)
        (<[k := RWait (seq (length (hr_polls s)) (hr_hosts s))]> (hr_rounds s)) (hr_polls s ++ map PPort (seq 0 (hr_hosts s))) (hr_handlers s))
  | Hr_nil s k ps : hr_loop s ≠ LCrash → hr_rounds s !! k = Some (RWait ps) → (∀ p, p ∈ ps → hr_polls s !! p = Some PDone) →
      hrstep s HOther (HR (hr_hosts s) (hr_dur s) (hr_loop s) (hr_resp s ++ [None]) (hr_stored s) (hr_pub s) (hr_snaps s)
        (<[k := RDone]> (hr_rounds s)) (hr_polls s) (hr_handlers s))
  (* poll.go:24-70: a poll *)
  | Hr_port s p h : hr_loop s ≠ LCrash → hr_polls s !! p = Some (PPort h) →
      hrstep s HOther (HR (hr_hosts s) (hr_dur s) (hr_loop s) (hr_resp s) (hr_stored s) (hr_pub s) (hr_snaps s) (hr_rounds s)
        (<[p := PFill h]> (hr_polls s)) (hr_handlers s))
  | Hr_fill s p h good d : hr_loop s ≠ LCrash → hr_polls s !! p = Some (PFill h) →
      hrstep s HOther (HR (hr_hosts s) (hr_dur s) (hr_loop s) (hr_resp s) (hr_stored s) (hr_pub s) (hr_snaps s) (hr_rounds s)
        (<[p := PSend (PResp p h good d)]> (hr_polls s)) (hr_handlers s))
  | Hr_push s p r : hr_loop s ≠ LCrash → hr_polls s !! p = Some (PSend r) →
      hrstep s HOther (HR (hr_hosts s) (hr_dur s) (hr_loop s) (hr_resp s ++ [Some r]) (hr_stored s) (hr_pub s) (hr_snaps s) (hr_rounds s)
        (<[p := PDone]> (hr_polls s)) (hr_handlers s))
  (* the handlers; a refused one got nil *)
  | Hr_ask s i q : hr_loop s ≠ LCrash → hr_handlers s i = HIdle → hrstep s HOther (set_handler s i (HAsk q))
  | Hr_refuse s i : hr_loop s ≠ LCrash → hr_handlers s i = HIdle → hrstep s HOther (set_handler s i (HDur []))
  | Hr_read s i n ds : hr_loop s ≠ LCrash → hr_handlers s i = HRead n ds → hrstep s HOther (set_handler s i (HDur ds))
  | Hr_page s i ds : hr_loop s ≠ LCrash → hr_handlers s i = HDur ds → hrstep s (HPage i ds (hr_dur s)) (set_handler s i HIdle).

Inductive hrsteps : hr → list hlab → hr → Prop :=
  | Hrs_nil s : hrsteps s [] s
  | Hrs_cons s a s' tr s'' : hrstep s a s' → hrsteps s' tr s'' → hrsteps s (a :: tr) s''.

(** ** Who is about to access what *)
Inductive hactor := ALoop | ARound (k : nat) | APoll (p : nat) | AHandler (i : nat).
Definition loop_accs (l : lphase) : list acc :=
  match l with LDo (x :: _) | LMake _ _ _ (x :: _) => [lop_acc x] | _ => [] end.
Definition round_accs (r : rphase) : list acc := match r with RNew => [Rd LHosts] | _ => [] end.
Definition poll_accs (p : nat) (x : pphase) : list acc :=
  match x with PPort h => [Rd (LPort h)] | PFill _ => [Wr (LResp p)] | PSend _ | PDone => [] end.
Definition handler_accs (h : hphase) : list acc :=
  match h with HRead n _ => [Rd (LSnap n); Wr (LSnap n)] | HDur _ => [Rd LDur] | _ => [] end.
Definition accs (s : hr) (a : hactor) : list acc :=
  match a with
  | ALoop => loop_accs (hr_loop s)
  | ARound k => match hr_rounds s !! k with Some r => round_accs r | None => [] end
  | APoll p => match hr_polls s !! p with Some x => poll_accs p x | None => [] end
  | AHandler i => handler_accs (hr_handlers s i)
  end.
