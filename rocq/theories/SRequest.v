(** * What healthd reports about its requests and polls (C66, C78) *)
From Verif Require Export SHealth MRequest.

(** the completion status for an HTTP status code, case by case
    (0 Success, 1 ValidationError, 3 Error, 4 Junk) *)
Inductive class_of : Z → Z → Prop :=
  | Cl_ok code : code < 400 → class_of code 0
  | Cl_422 : class_of 422 1
  | Cl_4xx code : 400 ≤ code < 500 → code ≠ 422 → class_of code 4
  | Cl_5xx code : 500 ≤ code → class_of code 3.

(** an event whose key/values contain the given ones *)
Definition event_with (event : string) (kv : list (string * string)) (p : payload) (view : gmap string string) : Prop :=
  p = PEvent event ∧ ∀ k v, (k, v) ∈ kv → view !! k = Some v.
(** a completion whose key/values contain the given ones *)
Definition completion_with (w : world) (start status : Z) (kv : list (string * string)) (p : payload) (view : gmap string string) : Prop :=
  completion w start status p view ∧ ∀ k v, (k, v) ∈ kv → view !! k = Some v.

(** the step a poll failed at, with its error *)
Definition failed_at (f : fetch) (step : string) (x : errv) : Prop :=
  match f with
  | FGet y => step = "poll.client.get" ∧ y = x
  | FRead _ _ y => step = "poll.ioutil.read_all" ∧ y = x
  | FDecode _ _ y _ => step = "poll.json.unmarshall" ∧ y = x
  | FReply _ _ _ => False
  end.
(** an error event for the error [x] *)
Definition error_event (w' : world) (event : string) (x : errv) (p : payload) (view : gmap string string) : Prop :=
  ∃ l stk, p = PEventErr event (EUnmuted l) false ∧ w_errs w' !! l = Some (OUnmuted x stk true).
(** the status code a response carries *)
Definition fetch_code (f : fetch) : Z :=
  match f with FGet _ => 0 | FRead c _ _ | FDecode c _ _ _ | FReply c _ _ => c end.
