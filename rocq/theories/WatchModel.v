(** Watching metadata: meta/src/store/command.rs:203-453, meta/src/store/storage.rs:206-283, 361-386,
    meta/src/service/http.rs:332-374 (and service/single.rs:281-322), meta/src/model/meta_admin.rs:298-377.
    Keys and values are byte strings (lists of codes; 47 is '/'). *)
From Verif Require Import Prelude.
Open Scope Z_scope.

(** * Strings *)
Fixpoint beqs (a b : list Z) : bool :=
  match a, b with [], [] => true | x :: a, y :: b => (x =? y) && beqs a b | _, _ => false end.
Fixpoint starts_with (p s : list Z) : bool :=
  match p, s with [], _ => true | x :: p, y :: s => (x =? y) && starts_with p s | _, [] => false end.
Definition strip_prefix (p s : list Z) : option (list Z) := if starts_with p s then Some (skipn (length p) s) else None.
(** str::split_once: the part before the first occurrence of a character. *)
Fixpoint before_slash (s : list Z) : option (list Z) :=
  match s with
  | [] => None
  | x :: s => if x =? 47 then Some [] else match before_slash s with Some a => Some (x :: a) | None => None end
  end.
(** key_path.rs:20-21, 28: "tenants", "auto_incr_id"; 34-36 cluster_prefix, 45-47 incr_id, 49-51 version,
    57-59 already_init, 104-106 tenants. *)
Definition str_tenants : list Z := [116; 101; 110; 97; 110; 116; 115].
Definition str_incr_id : list Z := [97; 117; 116; 111; 95; 105; 110; 99; 114; 95; 105; 100].
Definition key_version : list Z := [47; 100; 97; 116; 97; 95; 118; 101; 114; 115; 105; 111; 110].
Definition key_already_init : list Z := [47; 97; 108; 114; 101; 97; 100; 121; 95; 105; 110; 105; 116; 95; 107; 101; 121].
Definition cluster_prefix (c : list Z) : list Z := 47 :: c ++ [47].
Definition key_incr_id (c : list Z) : list Z := 47 :: c ++ 47 :: str_incr_id.
Definition key_tenants (c : list Z) : list Z := 47 :: c ++ 47 :: str_tenants ++ [47].

(** * The log ring *)
(** Models command.rs:203-216 (EntryLog). *)
Record entry := EL { l_del : bool; l_ver : Z; l_key : list Z; l_val : list Z }.
Definition entry0 : entry := EL false 0 [] [].
(** Models command.rs:244-262 (CircleBuf::new). *)
Record ring := RB { r_count : nat; r_writer : nat; r_cap : nat; r_buf : list entry }.
Definition ring_new (cap : nat) : ring := RB 0 0 cap (repeat entry0 cap).
Fixpoint put_nth (i : nat) (x : entry) (l : list entry) : list entry :=
  match l, i with [], _ => [] | _ :: l, O => x :: l | y :: l, S i => y :: put_nth i x l end.
(** Models command.rs:265-276 (append). *)
Definition ring_append (r : ring) (e : entry) : ring :=
  let w := S (r_writer r) in
  RB (if (r_count r <? r_cap r)%nat then S (r_count r) else r_count r)
     (if (w =? r_cap r)%nat then O else w) (r_cap r) (put_nth (r_writer r) e (r_buf r)).
(** Models command.rs:286-312 (min_version, max_version). *)
Definition ring_max (r : ring) : option Z :=
  if (r_count r =? 0)%nat then None
  else Some (l_ver (nth (if (r_writer r =? 0)%nat then r_cap r - 1 else r_writer r - 1) (r_buf r) entry0)).
Definition ring_min (r : ring) : option Z :=
  if (r_count r =? 0)%nat then None
  else Some (l_ver (nth (if (r_count r =? r_cap r)%nat then r_writer r else 0) (r_buf r) entry0)).
(** Models command.rs:314-335 (find_index): [None] stands for -1 and -2. *)
Fixpoint find_from (r : ring) (ver : Z) (n index : nat) : option nat :=
  match n with
  | O => None
  | S n => let index := if (index =? 0)%nat then (r_cap r - 1)%nat else (index - 1)%nat in
           if l_ver (nth index (r_buf r) entry0) <=? ver then Some index else find_from r ver n index
  end.
Definition find_index (r : ring) (ver : Z) : option nat :=
  if (r_count r =? 0)%nat then None else find_from r ver (r_count r) (r_writer r).
(** Models command.rs:337-353 (read_entrys); [None] is a loop that does not end. *)
Fixpoint read_from (r : ring) (want : entry -> bool) (fuel index : nat) : option (list entry) :=
  match fuel with
  | O => None
  | S fuel =>
      if (index =? r_writer r)%nat then Some []
      else let e := nth index (r_buf r) entry0 in
           match read_from r want fuel ((index + 1) mod r_cap r) with
           | Some l => Some (if want e then e :: l else l)
           | None => None
           end
  end.
Definition read_entrys (r : ring) (want : entry -> bool) (index : nat) : option (list entry) :=
  read_from r want (S (r_cap r)) ((index + 1) mod r_cap r).

(** Models command.rs:396-430: which entries a request is interested in. *)
Definition watch_filter (cluster : list Z) (tenants : list (list Z)) (e : entry) : bool :=
  let k := l_key e in
  if beqs k key_version || beqs k key_already_init || beqs k (key_incr_id cluster) then false
  else if negb (starts_with (cluster_prefix cluster) k) then false
  else if negb (starts_with (key_tenants cluster) k) then true
  else match tenants with
       | [] => false
       | _ => if existsb (beqs []) tenants then true
              else match strip_prefix (key_tenants cluster) k with
                   | Some sub => match before_slash sub with
                                 | Some t => existsb (beqs t) tenants
                                 | None => false
                                 end
                   | None => false
                   end
       end.

(** * The server *)
(** The version key of the store and the ring; the store itself is not needed here. *)
Record server := SV { v_ver : Z; v_log : ring }.
(** Models storage.rs:230-283 (insert, remove). *)
Definition sv_write (s : server) (w : bool * list Z * list Z) : server :=
  let '(del, key, val) := w in
  SV (v_ver s + 1) (ring_append (v_log s) (EL del (v_ver s + 1) key val)).
Definition sv_writes (s : server) (ws : list (bool * list Z * list Z)) : server := fold_left sv_write ws s.
(** Models storage.rs:127-152 (open): after a restart the ring is empty. *)
Definition sv_restart (s : server) : server := SV (v_ver s) (ring_new (r_cap (v_log s))).
(** Models storage.rs:94-106 (restore): the store is replaced by a snapshot at version [ver]; the ring stays. *)
Definition sv_restore (s : server) (ver : Z) : server := SV ver (v_log s).

(** Models command.rs:217-242 (WatchData, need_return). *)
Record wdata := WD { d_full : bool; d_max : Z; d_logs : list entry }.
Definition need_return (d : wdata) (base : Z) : bool :=
  d_full d || negb (match d_logs d with [] => true | _ => false end) || (base + 100 <? d_max d).
(** Models storage.rs:361-386 (read_change_logs). *)
Definition read_change_logs (s : server) (want : entry -> bool) (base : Z) : wdata :=
  let mx := match ring_max (v_log s) with Some v => v | None => 0 end in
  if base =? v_ver s then WD false mx []
  else match find_index (v_log s) base with
       | None => WD true mx []
       | Some i => match read_entrys (v_log s) want i with
                   | Some l => WD false mx l
                   | None => WD false mx []
                   end
       end.
(** Models http.rs:344-373 (process_watch), cut at the points where it waits: the first look at the log,
    which may answer at once, and one wake-up, which answers or waits on from a later version.  [late] says
    that 30 seconds have passed. *)
Definition watch_start (s : server) (want : entry -> bool) (base : Z) : option wdata :=
  let d := read_change_logs s want base in if need_return d base then Some d else None.
Definition watch_wake (s : server) (want : entry -> bool) (base follow : Z) (late : bool) : wdata + Z :=
  let d := read_change_logs s want follow in
  if need_return d base || late then inl d else inr (if follow <? d_max d then d_max d else follow).

(** * The client *)
(** Models meta_admin.rs:337-377 (watch_data_task, process_full_sync): the version it asks from, the version
    of its last full synchronisation and the changes received since. *)
Record client := CL { c_base : Z; c_synced : Z; c_seen : list entry }.
Definition cl_answer (c : client) (d : wdata) : client :=
  CL (d_max d) (c_synced c) (c_seen c ++ d_logs d).
Definition cl_sync (ver : Z) : client := CL ver ver [].
(** Models meta_admin.rs:312-315: the version to ask from when a tenant, read at version [ver], is added to
    the watched ones.  [fetch_min] returns the value before. *)
Definition fetch_min (cell arg : Z) : Z * Z := (cell, Z.min cell arg).
Definition add_tenant_base (watch_version ver : Z) : Z :=
  let '(base_ver, cell) := fetch_min watch_version ver in
  let cell := base_ver in cell.
