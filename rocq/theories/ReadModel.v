(** Model of the reading of one series from the files and caches of a vnode
    (/repo/tskv/src/reader/utils.rs:20-113, reader/mod.rs:280-330, reader/iterator.rs:319-560).

    Simplifications.  A chunk (a series in a file, or in a cache) is its file id, time range and
    rows, already aligned to the columns of the query (schema_alignmenter.rs); how a file or a cache
    produces its rows is modelled in PageModel, CodecModel and MemModel.  Row filtering by the
    pushed-down predicate is an arbitrary test [keep] (FilterModel relates it to the WHERE clause);
    skipping whole column groups by statistics is left out.  The batches of a stream are cut
    arbitrarily: one batch here (C21_batching_irrelevant). *)
From Verif Require Import Prelude MergeModel.

(** reader/mod.rs:280-284 DataReference *)
Record chunk := CH { c_file : Z; c_min : Z; c_max : Z; c_rows : list mrow }.

(** reader/utils.rs:77-113 group_overlapping_segments: [gs] are the groups built so far, the last
    one first, each with its chunks in reverse order; [g] is [global_min_ts] *)
Fixpoint group_loop (gs : list (list chunk)) (g : Z) (cs : list chunk) : list (list chunk) :=
  match cs with
  | [] => gs
  | c :: cs' =>
      let gs' := match gs with
                 | last :: rest => if c_min c <=? g then (c :: last) :: rest else [c] :: gs
                 | [] => [c] :: gs
                 end in
      group_loop gs' (Z.max (c_max c) g) cs'
  end.
Definition group_overlapping (cs : list chunk) : list (list chunk) :=
  rev (map (@rev chunk) (group_loop [] I64_MIN cs)).

(** reader/utils.rs:44-48, mod.rs:310-314: a group is sorted (stably) by file id *)
Fixpoint insert_file (c : chunk) (l : list chunk) : list chunk :=
  match l with
  | [] => [c]
  | x :: l' => if c_file c <=? c_file x then c :: l else x :: insert_file c l'
  end.
Fixpoint sort_files (l : list chunk) : list chunk :=
  match l with [] => [] | c :: l' => insert_file c (sort_files l') end.

(** iterator.rs:344-420 build_chunk_reader: the filter sits directly on the chunk's reader *)
Definition chunk_stream (keep : mrow -> bool) (c : chunk) : list batch := [filter keep (c_rows c)].
Definition group_rows (g : list chunk) : nat := length (concat (map c_rows g)).
(** iterator.rs:504-537: several readers are merged, a single one is passed on *)
Definition read_group (width batch_size : nat) (keep : mrow -> bool) (g : list chunk) : option (list mrow) :=
  match sort_files g with
  | [c] => Some (concat (chunk_stream keep c))
  | g' => match sort_merge (group_rows g + 2) width batch_size (map (chunk_stream keep) g') with
          | Some bs => Some (concat bs)
          | None => None
          end
  end.
(** iterator.rs:486-560 build_series_reader, on the chunks as sorted by time range; [None] is an error *)
Fixpoint read_groups (width batch_size : nat) (keep : mrow -> bool) (gs : list (list chunk)) : option (list mrow) :=
  match gs with
  | [] => Some []
  | g :: gs' =>
      match read_group width batch_size keep g, read_groups width batch_size keep gs' with
      | Some a, Some b => Some (a ++ b)
      | _, _ => None
      end
  end.
Definition read_series (width batch_size : nat) (keep : mrow -> bool) (sorted_chunks : list chunk) : option (list mrow) :=
  read_groups width batch_size keep (group_overlapping sorted_chunks).
