(** * Model of healthtop's loops and the polls they start

    cmd/healthtop/jobs.go:20-93 and hosts.go:14-65.  Every second, and once at
    the start, a goroutine is started that asks healthd and sends what it got
    to the loop on an unbuffered channel; which of several waiting goroutines
    is received from is not determined.  [A] is the decoded page. *)
From Verif Require Export MTop.

(** a goroutine: waiting for the answer (http.Get has no time limit), about to
    send a page or an error, or finished *)
Inductive poller (A : Type) := PWaiting | PSending (r : A + string) | PFinished.
Arguments PWaiting {A}.
Arguments PSending {A} r.
Arguments PFinished {A}.
Record tloop (A : Type) := TLoop { tl_polls : list (poller A); tl_top : top A }.
Arguments TLoop {A} tl_polls tl_top.
Arguments tl_polls {A} t.
Arguments tl_top {A} t.

(** [LTick]: <-secondTicker.  [LAnswer i r]: poll [i] has a page or an error.
    [LTake i now]: the loop receives from poll [i]. *)
Inductive tlev (A : Type) := LTick | LAnswer (i : nat) (r : A + string) | LTake (i : nat) (now : Z).
Arguments LTick {A}.
Arguments LAnswer {A} i r.
Arguments LTake {A} i now.

(** jobs.go:21-29, hosts.go:15-23 *)
Definition tloop0 {A} : tloop A := TLoop [PWaiting] (Top None tstatus0).
(** jobs.go:30-43, hosts.go:24-37; None: the event is not possible *)
Definition tl_step {A} (s : tloop A) (e : tlev A) : option (tloop A) :=
  match e with
  | LTick => Some (TLoop (tl_polls s ++ [PWaiting]) (tl_top s))
  | LAnswer i r =>
      match tl_polls s !! i with
      | Some PWaiting => Some (TLoop (<[i := PSending r]> (tl_polls s)) (tl_top s))
      | _ => None
      end
  | LTake i now =>
      match tl_polls s !! i with
      | Some (PSending r) =>
          let e := match r with inl a => TResponse a now | inr x => TError x now end in
          Some (TLoop (<[i := PFinished]> (tl_polls s)) (top_step (tl_top s) e))
      | _ => None
      end
  end.
Fixpoint tl_run {A} (s : tloop A) (tr : list (tlev A)) : option (tloop A) :=
  match tr with
  | [] => Some s
  | e :: tr => s' ← tl_step s e; tl_run s' tr
  end.
