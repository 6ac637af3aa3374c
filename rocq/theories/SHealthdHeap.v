(** * Specifications for the pointer-level model of healthd

    Executions in which other goroutines do what they like with the cells they
    were given.  Nothing here uses the functions of MHealthdHeap.v below
    [p_step]. *)
From Verif Require Export SHeap MHealthdHeap.

(** the state of an execution; [c_theirs]: the cells in other hands than the
    loop's, that is those it was not given, those it sent to handlers and
    those allocated by others *)
Record conf := Conf { c_st : st; c_hd : phd; c_theirs : gset addr }.

Definition handed (h : heap) (out : option slice) : gset addr :=
  match out with Some sl => list_to_set (cells_slice h sl) | None => ∅ end.

(** [prun o keep c tr c']: the loop performs the operations [tr]; in between,
    others write to their cells, those of [keep] excepted, and allocate *)
Inductive prun (o : orders) (keep : gset addr) : conf → list pop → conf → Prop :=
  | Pr_nil c : prun o keep c [] c
  | Pr_op c op s hd out tr c' :
      pop_ok (c_hd c) op → p_step (c_hd c) op o (c_st c) = Ok (s, (hd, out)) →
      prun o keep (Conf s hd (c_theirs c ∪ handed (s_heap s) out)) tr c' →
      prun o keep c (op :: tr) c'
  | Pr_others c h tr c' :
      mutates (λ x, x ∈ c_theirs c ∧ x ∉ keep) (s_heap (c_st c)) h →
      prun o keep (Conf (St h (s_log (c_st c)) (s_tick (c_st c))) (c_hd c)
                        (c_theirs c ∪ (dom h ∖ dom (s_heap (c_st c))))) tr c' →
      prun o keep c tr c'.

(** at the start nothing is the loop's *)
Definition conf0 (s : st) (hosts : list string) : conf := Conf s (phd_init hosts) (dom (s_heap s)).

(** the pointers of [ph] show the values of [v] *)
Definition shows_pub (h : heap) (q : pptr) (p : pagg) : Prop := pp_loc q = pa_loc p ∧ shows h (pp_addr q) (pa_ia p).
Definition shows_host (h : heap) (x : hptr) (d : dagg) : Prop :=
  hp_loc x = d_loc d ∧ hp_null x = d_null d ∧ shows h (hp_addr x) (d_ia d).
Definition shows_hd (h : heap) (ph : phd) (v : MHealthd.hd) : Prop :=
  ph_dur ph = hd_dur v ∧ ph_max ph = hd_max v ∧ Forall2 (shows_pub h) (ph_pub ph) (hd_pub v) ∧
  (∀ key, match ph_host ph !! key, hd_host v !! key with
          | Some x, Some d => shows_host h x d
          | None, None => True
          | _, _ => False
          end) ∧
  ph_need ph = hd_need v ∧ ph_status ph = hd_status v.

(** the same operation of the value model, with the same choices *)
Definition same_op (op : pop) (vop : MHealthd.hop) : Prop :=
  match op, vop with
  | PResp r t1 t2, HResp r' t1' t2' => r' = r ∧ t1' = t1 ∧ t2' = t2
  | PPurge now, HPurge now' => now' = now
  | PRecalc o, HRecalc o' => ro_keys o' = po_times o ∧ ∀ k, (ro_entries o' k).*1 = po_keys o k
  | _, _ => False
  end.
Definition is_read (op : pop) : Prop := match op with PRead => True | _ => False end.
#[global] Instance is_read_dec op : Decision (is_read op).
Proof. destruct op; cbn; apply _. Defined.
(** the operations other than reads *)
Definition same_ops (tr : list pop) (vtr : list MHealthd.hop) : Prop := Forall2 same_op (filter (λ op, ¬ is_read op) tr) vtr.
