(** * Model of healthtop's tables: cmd/healthtop/jobs.go:107-208, hosts.go:67-118

    The text that is written to goterm's table (a text/tabwriter).
    [bold] and [color] are goterm.Bold and goterm.Color. *)
From Verif Require Export MTop.

Definition esc : ascii := zchar 27.
Definition tab_s : string := String (zchar 9) "".
Definition nl_s : string := String (zchar 10) "".
(** int64(f): towards zero; what is out of range gives the least int64 (amd64) *)
Definition f_to_int64 (f : f64) : Z :=
  let cut n := if (- 2 ^ 63 <=? n) && (n <? 2 ^ 63) then n else - 2 ^ 63 in
  match f with
  | S754_zero _ => 0
  | S754_finite s m e =>
      let n := if 0 <=? e then Zpos m * 2 ^ e else Zpos m / 2 ^ (- e) in
      cut (if s then - n else n)
  | _ => - 2 ^ 63
  end.

Inductive tcolor := Black | Green | Red.
(** a cell: its text, whether it is bold, its colour (jobs.go:182-191) *)
Record cell := Cell { c_text : string; c_bold : bool; c_color : tcolor }.
Definition cell_string (text : string) (isBold isGreen isRed : bool) : cell :=
  Cell text isBold (if isGreen then Green else if isRed then Red else Black).
(** jobs.go:178-180, 163-176 *)
Definition cell_int64 (v : Z) : bool → bool → bool → cell := cell_string (dec_int v).
Definition cell_time (nanos : Z) : bool → bool → bool → cell := cell_string (cell_nanos nanos).

(** jobs.go:146-161 [printJob] *)
Definition job_cells (j : ajob) : list cell :=
  let full := aj_count j =? aj_success j in
  [cell_string (aj_name j) true false false;
   cell_int64 (aj_count j) false full false;
   cell_int64 (aj_success j) full full false;
   cell_int64 (aj_verror j) (0 <? aj_verror j) false (0 <? aj_verror j);
   cell_int64 (aj_panic j) (0 <? aj_panic j) false (0 <? aj_panic j);
   cell_int64 (aj_error j) (0 <? aj_error j) false (0 <? aj_error j);
   cell_int64 (aj_junk j) (0 <? aj_junk j) false (0 <? aj_junk j);
   cell_time (f_to_int64 (aj_avg j)) true false false;
   cell_time (f_to_int64 (aj_stddev j)) false false false;
   cell_time (aj_min j) false false false;
   cell_time (aj_max j) false false false;
   cell_time (aj_sum j) false false false].
(** hosts.go:99-118 [printHost]; [fmt] is Format(time.RFC1123) *)
Definition host_cells (fmt : Z → string) (h : hstatus) : list cell :=
  let '(status, success) := host_cell h in
  [cell_string (hs_hp h) true false false;
   cell_string status false success (negb success);
   cell_string (fmt (hs_check h)) false false false;
   cell_time (hs_nanos h) false false false].

Section Goterm.
  Context (bold : string → string) (color : tcolor → string → string).

  (** jobs.go:193-204 [format], [normal] *)
  Definition normal (t : string) : string := String esc "[0m" +:+ t +:+ String esc "[0m".
  Definition format_cell (c : cell) : string :=
    if c_bold c then bold (color (c_color c) (c_text c)) else normal (color (c_color c) (c_text c)).
  Fixpoint print_cells (l : list cell) : string :=
    match l with [] => nl_s | c :: l => format_cell c +:+ tab_s +:+ print_cells l end.
  (** jobs.go:117-141, hosts.go:77-95: the header line and the rows; a nil
      pointer among the rows is dereferenced *)
  Definition header (columns : list string) : string := String.concat tab_s (map (λ s, bold (color Black s)) columns) +:+ nl_s.
  Fixpoint print_rows {A} (cells : A → list cell) (l : list (option A)) : res string :=
    match l with
    | [] => Ok ""
    | None :: _ => Crash "invalid memory address or nil pointer dereference"
    | Some x :: l => t ←r print_rows cells l; Ok (print_cells (cells x) +:+ t)
    end.
  Definition job_columns : list string :=
    ["Job"; "Total Count"; "Success"; "ValidationError"; "Panic"; "Error"; "Junk"; "Avg Response Time"; "Stddev"; "Min"; "Max"; "Total"].
  Definition host_columns : list string := ["Host:Port"; "Status"; "Last Checked"; "Last Response Time"].
  Definition jobs_table (l : list (option ajob)) : res string :=
    t ←r print_rows job_cells l; Ok (header job_columns +:+ t).
  Definition hosts_table (fmt : Z → string) (l : list (option hstatus)) : res string :=
    t ←r print_rows (host_cells fmt) l; Ok (header host_columns +:+ t).
End Goterm.
