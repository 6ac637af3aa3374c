(** * Model of identifier.go, runtime_metrics/fds_linux.go and fds_darwin.go *)
From Verif Require Export MFmt.

(** identifier.go:10-18 [getIdentifier]; [host] is what os.Hostname returned
    (None: an error), [pid] what os.Getpid returned *)
Definition get_identifier (host : option string) (pid : Z) : string :=
  match host with Some h => h | None => "hostname_errored" end +:+ "." +:+ dec_int pid.

(** The descriptors a process has open, at most [limit] of them.  [open_dir]:
    opening a directory takes a free descriptor, or fails when there are
    already [limit].  (Not code of /repo: what open(2) does.) *)
Definition open_dir (limit : nat) (fds : gset nat) : option (nat * gset nat) :=
  if decide (size fds < limit)%nat then let fd := fresh fds in Some (fd, {[fd]} ∪ fds) else None.
(** fds_linux.go:7-13 [getFDUsage]: ioutil.ReadDir opens /proc/self/fd, reads
    it, and closes it; the directory has an entry for every descriptor open
    while it is read.  The count (None: an error), and the descriptors open
    afterwards. *)
Definition fd_usage_linux (limit : nat) (fds : gset nat) : option Z * gset nat :=
  match open_dir limit fds with
  | Some (fd, open) => (Some (Z.of_nat (size open)), open ∖ {[fd]})
  | None => (None, fds)
  end.
(** fds_darwin.go:3-5 *)
Definition fd_usage_darwin (fds : gset nat) : option Z * gset nat := (Some 0, fds).
