(** A concrete serialisation for the examples of C55: every field is one number, a list carries its length. *)
From Verif Require Import Prelude TimeRangeModel TsmModel TsmSpec.

Record codec (A : Type) := CODEC { en : A -> list Z; de : list Z -> option (A * list Z); en_de : forall x r, de (en x ++ r) = Some (x, r) }.
Arguments en {A}. Arguments de {A}. Arguments en_de {A}.
Definition c_z : codec Z.
Proof. refine (CODEC Z (fun x => [x]) (fun l => match l with x :: r => Some (x, r) | [] => None end) _). intros. auto. Defined.
Definition c_pair {A B} (a : codec A) (b : codec B) : codec (A * B).
Proof. refine (CODEC (A * B) (fun x => en a (fst x) ++ en b (snd x))
        (fun l => match de a l with Some (x, l') => match de b l' with Some (y, r) => Some ((x, y), r) | None => None end | None => None end) _). intros [x y] r. rewrite <- app_assoc, en_de, en_de. auto. Defined.
Definition c_iso {A B} (a : codec A) (f : B -> A) (g : A -> B) (gf : forall x, g (f x) = x) : codec B.
Proof. refine (CODEC B (fun x => en a (f x)) (fun l => match de a l with Some (x, r) => Some (g x, r) | None => None end) _). intros. rewrite en_de, gf. auto. Defined.
Definition c_nat : codec nat := c_iso c_z Z.of_nat Z.to_nat Nat2Z.id.
Definition c_bool : codec bool.
Proof. refine (c_iso c_z (fun b : bool => if b then 1 else 0) (fun z => z =? 1) _). intros. destruct x; auto. Defined.
Fixpoint de_n {A} (a : codec A) (n : nat) (l : list Z) : option (list A * list Z) :=
  match n with O => Some ([], l) | S n' => match de a l with Some (x, l') => match de_n a n' l' with Some (xs, r) => Some (x :: xs, r) | None => None end | None => None end end.
Lemma de_n_ok {A} (a : codec A) xs r : de_n a (length xs) (concat (map (en a) xs) ++ r) = Some (xs, r).
Proof. induction xs as [|x xs IH]; cbn; auto. rewrite <- app_assoc, en_de, IH. auto. Qed.
Definition c_list {A} (a : codec A) : codec (list A).
Proof. refine (CODEC (list A) (fun xs => Z.of_nat (length xs) :: concat (map (en a) xs)) (fun l => match l with n :: l' => de_n a (Z.to_nat n) l' | [] => None end) _). intros. cbn [app]. rewrite Nat2Z.id. apply de_n_ok. Defined.
Definition c_tag {A} (p q : Z) (a : codec A) : codec A.
Proof. refine (CODEC A (fun x => p :: q :: en a x) (fun l => match l with _ :: _ :: l' => de a l' | _ => None end) _). intros. apply en_de. Defined.

Definition c_tr : codec trange.
Proof. refine (c_iso (c_pair c_z c_z) (fun r => (tmin r, tmax r)) (fun p => TR (fst p) (snd p)) _). intros. destruct x; auto. Defined.
Definition c_ps : codec pspec.
Proof. refine (c_iso (c_pair c_nat (c_pair c_nat c_z)) (fun r => (sp_off r, (sp_size r, sp_meta r))) (fun p => PSP (fst p) (fst (snd p)) (snd (snd p))) _). intros. destruct x; auto. Defined.
Definition c_cg : codec cgroup.
Proof. refine (c_iso (c_pair c_nat (c_pair c_nat (c_pair c_nat (c_pair c_tr (c_list c_ps)))))
  (fun r => (cg_id r, (cg_off r, (cg_size r, (cg_tr r, cg_pages r))))) (fun p => CG (fst p) (fst (snd p)) (fst (snd (snd p))) (fst (snd (snd (snd p)))) (snd (snd (snd (snd p))))) _). intros. destruct x; auto. Defined.
Definition c_tc : codec tchunk.
Proof. refine (c_tag 7 7 (c_iso (c_pair c_tr (c_pair c_z (c_pair c_z (c_pair c_z (c_pair c_nat (c_list c_cg))))))
  (fun r => (tc_tr r, (tc_table r, (tc_sid r, (tc_key r, (tc_next r, tc_groups r))))))
  (fun p => TC (fst p) (fst (snd p)) (fst (snd (snd p))) (fst (snd (snd (snd p)))) (fst (snd (snd (snd (snd p))))) (snd (snd (snd (snd (snd p)))))) _)). intros. destruct x; auto. Defined.
Definition c_cw : codec cwspec.
Proof. refine (c_iso (c_pair c_z (c_pair c_nat (c_pair c_nat c_tr))) (fun r => (cw_sid r, (cw_off r, (cw_size r, cw_tr r))))
  (fun p => CW (fst p) (fst (snd p)) (fst (snd (snd p))) (snd (snd (snd p)))) _). intros. destruct x; auto. Defined.
Definition c_ts : codec tschema.
Proof. refine (c_iso (c_pair c_z (c_pair c_z c_z)) (fun r => (sc_name r, (sc_version r, sc_rest r))) (fun p => TS (fst p) (fst (snd p)) (snd (snd p))) _). intros. destruct x; auto. Defined.
Definition c_gw : codec gwspec.
Proof. refine (c_iso (c_pair c_ts (c_pair c_nat (c_pair c_nat c_tr))) (fun r => (gw_schema r, (gw_off r, (gw_size r, gw_tr r))))
  (fun p => GW (fst p) (fst (snd p)) (fst (snd (snd p))) (snd (snd (snd p)))) _). intros. destruct x; auto. Defined.
Definition c_ft : codec footer.
Proof. refine (c_iso (c_pair c_bool (c_pair c_tr (c_pair c_nat (c_pair c_nat (c_pair (c_list c_z) (c_pair c_nat c_nat))))))
  (fun r => (f_v2 r, (f_tr r, (f_goff r, (f_gsize r, (f_bloom r, (f_coff r, f_csize r)))))))
  (fun p => FT (fst p) (fst (snd p)) (fst (snd (snd p))) (fst (snd (snd (snd p)))) (fst (snd (snd (snd (snd p))))) (fst (snd (snd (snd (snd (snd p)))))) (snd (snd (snd (snd (snd (snd p))))))) _). intros. destruct x; auto. Defined.
Definition run {A} (c : codec A) (l : list Z) : option A := option_map fst (de c l).
Lemma run_ok {A} (c : codec A) x : run c (en c x) = Some x.
Proof. unfold run. rewrite <- (app_nil_r (en c x)), en_de. auto. Qed.
(** two leading sevens are written as one eight *)
Definition toy_comp (l : list Z) : list Z :=
  if (hd 0 l =? 7) && (hd 0 (tl l) =? 7) then 8 :: tl (tl l) else if (hd 0 l =? 8) || (hd 0 l =? 9) then 9 :: l else l.
Definition toy_decomp (l : list Z) : option (list Z) := Some (if hd 0 l =? 8 then 7 :: 7 :: tl l else if hd 0 l =? 9 then tl l else l).
Definition toy : tsm_env := ENV (en c_tc) (run c_tc) (en (c_list c_cw)) (run (c_list c_cw)) (en (c_list (c_pair c_z c_gw))) (run (c_list (c_pair c_z c_gw)))
  (en c_ft) (run c_ft) 8 toy_comp toy_decomp (fun _ => true) (fun _ => []).
Lemma toy_ok : env_ok toy.
Proof.
  constructor; cbn [d_chunk e_chunk d_group e_group d_meta e_meta d_foot e_foot toy decomp comp]; try (intros; apply run_ok).
  - intros [v2 tr a b bl d e] l Q. cbn in Q. subst bl. destruct v2; reflexivity.
  - intros l. unfold toy_comp, toy_decomp. f_equal.
    destruct (Z.eqb_spec (hd 0 l) 7) as [A|A]; [destruct (Z.eqb_spec (hd 0 (tl l)) 7) as [B|B]|]; cbn [andb orb hd tl].
    + destruct l as [|a [|b l]]; cbn in *; try discriminate. subst. auto.
    + destruct l as [|a l]; cbn in A; [discriminate|]. subst a. auto.
    + destruct (Z.eqb_spec (hd 0 l) 8); cbn [orb]; auto. destruct (Z.eqb_spec (hd 0 l) 9) as [N|N]; cbn [orb]; auto.
      destruct (Z.eqb_spec (hd 0 l) 8); [congruence|]. destruct (Z.eqb_spec (hd 0 l) 9); [congruence|]. auto.
Qed.
