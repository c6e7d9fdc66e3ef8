(** Model of the function value_fill
    (/repo/query_server/query/src/extension/expr/ts_gen_func/data_repair/value_fill.rs).

    Simplifications.  Doubles are rationals with exact arithmetic, so rounding and overflow to infinity are left out; a value of the
    input is [None] when it is NULL or not finite.  The argument text has been parsed; an unknown method, and its error, are left out.
    The conversions of columns are those of RepairModel. *)
From Coq Require Import QArith.
From Verif Require Import Prelude RepairModel.
Open Scope Z_scope.

(** value_fill.rs:25-31 FillMethod *)
Inductive fill_method := FMean | FPrevious | FLinear | FAR | FMA.

Definition of_nat_q (n : nat) : Q := inject_Z (Z.of_nat n).
(** value_fill.rs:67-73: the finite values *)
Definition known (l : list (option Q)) : list Q := flat_map (fun x => match x with Some q => [q] | None => [] end) l.
Definition sum_q (l : list Q) : Q := fold_left Qplus l 0%Q.
(** value_fill.rs:105-106, 156-157 *)
Definition mean_of (l : list (option Q)) : Q := (sum_q (known l) / of_nat_q (length (known l)))%Q.

(** value_fill.rs:104-114 fill_mean *)
Definition fill_mean (l : list (option Q)) : list val :=
  map (fun x => match x with Some q => Num q | None => Num (mean_of l) end) l.
(** value_fill.rs:116-124 fill_previous *)
Fixpoint fill_previous (last : val) (l : list (option Q)) : list val :=
  match l with
  | [] => []
  | x :: r => let last' := match x with Some q => Num q | None => last end in last' :: fill_previous last' r
  end.

(** a write to a place of the vector *)
Fixpoint put (i : nat) (v : val) (out : list val) : list val :=
  match i, out with
  | O, _ :: r => v :: r
  | S i', x :: r => x :: put i' v r
  | _, [] => []
  end.
(** value_fill.rs:137-140: from [t] up to [i - 1], [n] places *)
Fixpoint put_line (n t i : nat) (v k : Q) (out : list val) : list val :=
  match n with
  | O => out
  | S n' => put_line n' (S t) i v k (put t (Num (v + k * inject_Z (Z.of_nat t - Z.of_nat i))%Q) out)
  end.
(** value_fill.rs:127-144: the loop over the values; [prev] is [None] for usize::MAX *)
Fixpoint linear_loop (l : list (option Q)) (i : nat) (prev : option (nat * Q)) (out : list val) : option (nat * Q) * list val :=
  match l with
  | [] => (prev, out)
  | None :: r => linear_loop r (S i) prev out
  | Some v :: r =>
      let k := match prev with Some (p, u) => ((v - u) / of_nat_q (i - p))%Q | None => 0%Q end in
      let t := match prev with Some (p, _) => S p | None => O end in
      linear_loop r (S i) (Some (i, v)) (put i (Num v) (put_line (i - t) t i v k out))
  end.
(** value_fill.rs:146-150: from [t] on, [n] places *)
Fixpoint put_same (n t : nat) (v : val) (out : list val) : list val :=
  match n with O => out | S n' => put_same n' (S t) v (put t v out) end.
(** value_fill.rs:126-153 fill_linear: the vector has room but no contents (line 128), its length is set at the end (line 152) *)
Definition fill_linear (l : list (option Q)) : list val :=
  let len := length l in
  match linear_loop l 0 None (repeat Uninit len) with
  | (Some (p, u), out) => if (p <? len - 1)%nat then put_same (len - 1 - p) p (Num u) out else out
  | (None, out) => out
  end.

(** value_fill.rs:161-171 and 180-188: sums over neighbours *)
Definition zero_if_none (x : option Q) : Q := match x with Some q => q | None => 0%Q end.
Fixpoint ar_sums (l : list (option Q)) (acf factor : Q) : Q * Q :=
  match l with
  | a :: ((b :: _) as r) =>
      ar_sums r (acf + zero_if_none a * zero_if_none b)%Q (factor + zero_if_none a * zero_if_none a)%Q
  | _ => (acf, factor)
  end.
Fixpoint ar_eps (l : list (option Q)) (theta sum : Q) (cnt : nat) : Q * nat :=
  match l with
  | a :: ((b :: _) as r) =>
      match a, b with
      | Some x, Some y => ar_eps r theta (sum + (y - theta * x))%Q (S cnt)
      | _, _ => ar_eps r theta sum cnt
      end
  | _ => (sum, cnt)
  end.
(** value_fill.rs:195-205; [before] is the value repaired last *)
Fixpoint ar_fill (l : list (option Q)) (theta eps mean : Q) (before : option Q) : list val :=
  match l with
  | [] => []
  | x :: r =>
      let v := match x with
               | Some q => q
               | None => match before with Some b => (theta * b + eps)%Q | None => mean end
               end in
      Num v :: ar_fill r theta eps mean (Some v)
  end.
(** value_fill.rs:155-208 fill_ar *)
Definition fill_ar (l : list (option Q)) : outcome (list val) :=
  let '(acf, factor) := ar_sums l 0%Q 0%Q in
  if Qeq_bool factor 0 then Failed
  else
    let theta := (acf / factor)%Q in
    let '(sum, cnt) := ar_eps l theta 0%Q 0%nat in
    if (cnt =? 0)%nat then Failed
    else Done (ar_fill l theta (sum / of_nat_q cnt)%Q (mean_of l) None).

(** value_fill.rs:210-239 fill_ma; the window of size 5 has its upper end at [r] and is only ever added to.  A quotient by 0 is NaN. *)
Fixpoint ma_loop (whole l : list (option Q)) (i r : nat) (sum : Q) (cnt : nat) : list val :=
  match l with
  | [] => []
  | x :: rest =>
      let shown := match x with
                   | Some q => Num q
                   | None => if (cnt =? 0)%nat then NaN else Num (sum / of_nat_q cnt)%Q
                   end in
      shown ::
      (if ((i <=? 2)%nat || (Z.of_nat (length whole) - 3 <=? Z.of_nat i))%bool then ma_loop whole rest (S i) r sum cnt
       else match nth r whole None with
            | Some q => ma_loop whole rest (S i) (S r) (sum + q)%Q (S cnt)
            | None => ma_loop whole rest (S i) (S r) sum cnt
            end)
  end.
Definition fill_ma (l : list (option Q)) : list val :=
  let w := known (firstn 4 l) in
  ma_loop l l 0 4 (sum_q w) (length w).

(** value_fill.rs:63-102 new and fill *)
Definition value_fill (m : fill_method) (l : list (option Q)) : outcome (list val) :=
  match known l with
  | [] => Failed
  | _ => match m with
         | FMean => Done (fill_mean l)
         | FPrevious => Done (fill_previous NaN l)
         | FLinear => Done (fill_linear l)
         | FAR => fill_ar l
         | FMA => Done (fill_ma l)
         end
  end.
(** value_fill.rs:6-17 compute between the conversions of columns: the times are those of the input *)
Definition select_value_fill (ty : col_type) (m : fill_method) (rows : list (Z * option Q)) : outcome (list (Z * val)) :=
  match ty with
  | CUInt => Failed
  | _ => bind (value_fill m (map snd rows)) (fun vs => Done (combine (map fst rows) (map (value_out ty) vs)))
  end.
