(** Specification of watching: the changes are numbered 1, 2, ... in the order they are made. *)
From Verif Require Import Prelude WatchModel.
Open Scope Z_scope.

(** What can happen to a server and a client that watches it. *)
Inductive wop :=
| PWrite (w : bool * list Z * list Z) (* a change *)
| PRestart                            (* the server restarts; a waiting request is lost *)
| PAsk                                (* the client sends a request *)
| PWake (late : bool)                 (* the waiting request is woken up *)
| PSync.                              (* the client, told to do so, synchronises fully *)

Fixpoint numbered (n : Z) (ws : list (bool * list Z * list Z)) : list entry :=
  match ws with [] => [] | (del, k, v) :: ws => EL del n k v :: numbered (n + 1) ws end.
Definition writes_of (h : list wop) : list (bool * list Z * list Z) :=
  concat (map (fun o => match o with PWrite w => [w] | _ => [] end) h).
Definition changes (h : list wop) : list entry := numbered 1 (writes_of h).
(** The changes after version [a], and those up to [b]. *)
Definition after (a : Z) (l : list entry) : list entry := filter (fun e => a <? l_ver e) l.
Definition upto (b : Z) (l : list entry) : list entry := filter (fun e => l_ver e <=? b) l.

(** Server, client, the version the waiting request follows, whether the client has been told to
    resynchronise, and the answer that arrived in the last step. *)
Record world := WO { w_srv : server; w_cl : client; w_wait : option Z; w_told : bool; w_news : option wdata }.
Definition deliver (w : world) (d : wdata) : world :=
  if d_full d then WO (w_srv w) (w_cl w) None true (Some d)
  else WO (w_srv w) (cl_answer (w_cl w) d) None false (Some d).
Definition wop_run (want : entry -> bool) (w : world) (o : wop) : world :=
  match o with
  | PWrite x => WO (sv_write (w_srv w) x) (w_cl w) (w_wait w) (w_told w) None
  | PRestart => WO (sv_restart (w_srv w)) (w_cl w) None (w_told w) None
  | PAsk =>
      if w_told w then WO (w_srv w) (w_cl w) None true None
      else match watch_start (w_srv w) want (c_base (w_cl w)) with
           | Some d => deliver w d
           | None => WO (w_srv w) (w_cl w) (Some (c_base (w_cl w))) false None
           end
  | PWake late =>
      match w_wait w with
      | None => WO (w_srv w) (w_cl w) None (w_told w) None
      | Some follow =>
          match watch_wake (w_srv w) want (c_base (w_cl w)) follow late with
          | inl d => deliver w d
          | inr follow => WO (w_srv w) (w_cl w) (Some follow) (w_told w) None
          end
      end
  | PSync => if w_told w then WO (w_srv w) (cl_sync (v_ver (w_srv w))) None false None else WO (w_srv w) (w_cl w) (w_wait w) false None
  end.
Definition wrun (cap : nat) (want : entry -> bool) (h : list wop) : world :=
  fold_left (wop_run want) h (WO (SV 0 (ring_new cap)) (CL 0 0 []) None false None).

(** Keys as the metadata service builds them (key_path.rs): a key of the cluster, a tenant itself, and
    something inside a tenant. *)
Definition slash_free (s : list Z) : Prop := ~ In 47 s.
Definition global_key (c rest : list Z) : list Z := 47 :: c ++ 47 :: rest.
Definition tenant_key (c t : list Z) : list Z := 47 :: c ++ 47 :: str_tenants ++ 47 :: t.
Definition in_tenant_key (c t rest : list Z) : list Z := 47 :: c ++ 47 :: str_tenants ++ 47 :: t ++ 47 :: rest.
