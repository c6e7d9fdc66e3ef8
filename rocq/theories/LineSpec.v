(** What the line protocol theorems (C39) speak about: the text that denotes a point. *)
From Verif Require Import Prelude Bytes LineModel.
From Verif Require MetaModel.
From Coq Require String Ascii.
Open Scope Z_scope.

(** The bytes of a text. *)
Definition text (s : String.string) : str := map (fun a => Z.of_N (Ascii.N_of_ascii a)) (String.list_ascii_of_string s).
(** Decimal notation. *)
Definition decimal (z : Z) : str := if z <? 0 then c_minus :: MetaModel.show (Z.to_N (- z)) else MetaModel.show (Z.to_N z).

(** The documented escaping: comma and space in a table name; comma, space and equals sign in tag keys, tag values and
    field keys; double quote and backslash in a string value. *)
Definition esc_with (special : Z -> bool) (s : str) : str := flat_map (fun c => if special c then [c_bs; c] else [c]) s.
Definition esc_table_name : str -> str := esc_with (fun c => (c =? c_comma) || (c =? c_sp)).
Definition esc_key : str -> str := esc_with (fun c => (c =? c_comma) || (c =? c_sp) || (c =? c_eq)).
Definition esc_string : str -> str := esc_with (fun c => (c =? c_quote) || (c =? c_bs)).

(** Space, tab, new line, form feed, carriage return. *)
Definition blank (c : Z) : Prop := In c [32; 9; 10; 12; 13].

Section Text.
  Context {F : Type}.
  Variable ff : str -> option F.
  (** The ways to write a field value. *)
  Inductive val_text : @fval F -> str -> Prop :=
  | vt_true t : In t ([[116]; [84]] ++ w_true) -> val_text (FBool true) t
  | vt_false t : In t ([[102]; [70]] ++ w_false) -> val_text (FBool false) t
  | vt_int z : is_i64 z -> val_text (FI64 z) (decimal z ++ [105])
  | vt_uint z : is_u64 z -> val_text (FU64 z) (decimal z ++ [117])
  | vt_str s : val_text (FStr s) (c_quote :: esc_string s ++ [c_quote])
  | vt_float c t x : ff (c :: t) = Some x -> (c = c_plus \/ c = c_minus \/ 48 <= c <= 57) ->
      (forall d, In d (c :: t) -> d <> c_comma /\ d <> c_sp /\ d <> c_quote /\ d <> c_bs /\ d <> c_nl /\ d <> c_cr) ->
      last (c :: t) 0 <> 105 -> last (c :: t) 0 <> 117 -> val_text (FF64 x) (c :: t).
  Record point := PT { pt_table : str; pt_tags : list (str * str); pt_fields : list (str * @fval F); pt_time : option Z }.
  Inductive fields_text : list (str * @fval F) -> str -> Prop :=
  | ft_one k v t : val_text v t -> fields_text [(k, v)] (esc_key k ++ c_eq :: t)
  | ft_more k v t fs r : val_text v t -> fields_text fs r -> fields_text ((k, v) :: fs) (esc_key k ++ c_eq :: t ++ c_comma :: r).
  Definition tags_text (ts : list (str * str)) : str := flat_map (fun kv => c_comma :: esc_key (fst kv) ++ c_eq :: esc_key (snd kv)) ts.
  Definition time_text (t : option Z) : str := match t with Some z => c_sp :: decimal z | None => [] end.
  (** table,key=value,... key=value,... time *)
  Definition line_text (p : point) (t : str) : Prop := exists ft, fields_text (pt_fields p) ft /\
    t = esc_table_name (pt_table p) ++ tags_text (pt_tags p) ++ c_sp :: ft ++ time_text (pt_time p).
  (** Lines, each ended by a newline or a carriage return (which the last line need not have), and between them blanks,
      empty lines and comment lines. *)
  Inductive lines_text : list point -> str -> Prop :=
  | lt_nil : lines_text [] []
  | lt_last p t : line_text p t -> lines_text [p] t
  | lt_more p t e ps r : line_text p t -> e = c_nl \/ e = c_cr -> lines_text ps r -> lines_text (p :: ps) (t ++ e :: r)
  | lt_blank c ps r : blank c -> lines_text ps r -> lines_text ps (c :: r)
  | lt_comment w e ps r : ~ In c_nl w -> ~ In c_cr w -> e = c_nl \/ e = c_cr -> lines_text ps r -> lines_text ps (c_hash :: w ++ e :: r)
  | lt_comment_end w : ~ In c_nl w -> ~ In c_cr w -> lines_text [] (c_hash :: w).

  (** The names for which the escaping works.  A backslash in a name must be followed by a second one or by a quote. *)
  Fixpoint bs_ok (s : str) : Prop :=
    match s with
    | [] => True
    | c :: r => if c =? c_bs then match r with d :: r' => (d = c_bs \/ d = c_quote \/ d = c_apos) /\ bs_ok r' | [] => False end else bs_ok r
    end.
  (** A table name does not start with a blank, '#', a comma or a backslash, and does not have both an equals sign (after
      its first character) and a character that is escaped. *)
  Definition table_ok (s : str) : Prop :=
    bs_ok s /\ match s with
               | c :: r => ~ blank c /\ c <> c_hash /\ c <> c_comma /\ c <> c_bs /\
                           (~ In c_eq r \/ ~ (In c_comma s \/ In c_sp s \/ In c_bs s))
               | [] => False
               end.
  Definition plain_start (s : str) : Prop :=
    match s with c :: _ => c <> c_comma /\ c <> c_sp /\ c <> c_eq /\ c <> c_bs | [] => False end.
  Definition writable (p : point) : Prop :=
    table_ok (pt_table p) /\ Forall (fun kv => bs_ok (fst kv) /\ bs_ok (snd kv)) (pt_tags p) /\
    Forall (fun kv => fst kv <> [] /\ bs_ok (fst kv)) (pt_fields p) /\
    match pt_fields p with (k, _) :: _ => plain_start k | [] => False end /\
    match pt_time p with Some z => is_i64 z | None => True end.

  (** [a] is [b] as a map: sorted by key, each key with the value it has first in [b]. *)
  Definition key_lt {A} (x y : str * A) : Prop := MetaModel.scmp (fst x) (fst y) = Lt.
  Definition same_map {A} (a b : list (str * A)) : Prop :=
    StronglySorted key_lt a /\ forall k, MetaModel.get k a = MetaModel.get k b.
  (** The parsed line is the point. *)
  Definition denotes (default_time : Z) (p : point) (l : @line F) : Prop :=
    l_table l = pt_table p /\ same_map (l_tags l) (pt_tags p) /\ same_map (l_fields l) (pt_fields p) /\
    l_time l = (match pt_time p with Some z => z | None => default_time end) /\
    l_hash l = hash_line (l_table l) (l_tags l).
End Text.
