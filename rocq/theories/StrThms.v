(* Closing lemmas and examples for the string operations. *)
From Coq Require Import ZArith Bool Ascii String List Reals Lra Lia.
From Verif Require Import Base BaseFacts StrSpec StrOps StrFacts StrNum StrDelim.
Import ListNotations.
Open Scope Z_scope.

(* ---- splitting and trimming ---- *)
Lemma split_unique s d ps : pieces (fun c => c = d \/ c = newline) s ps -> split s d = ps.
Proof. intros H. eapply pieces_unique; [apply split_pieces | exact H]. Qed.
Lemma split_join d ps : Forall (fun p => p <> [] /\ Forall (fun c => c <> d /\ c <> newline) p) ps -> split (join d ps) d = ps.
Proof.
  intros H. apply split_unique, join_pieces; auto. eapply Forall_impl; [|exact H]. intros p (H1 & H2). split; auto.
  eapply Forall_impl; [|exact H2]. intros c (H3 & H4). tauto.
Qed.
Lemma trim_iff s m : m = trim s <-> exists l r, s = l ++ m ++ r /\
  Forall (fun c => white c \/ c = "["%char) l /\ Forall (fun c => white c \/ c = "]"%char) r /\
  starts_not (fun c => white c \/ c = "["%char) (m ++ r) /\ starts_not (fun c => white c \/ c = "]"%char) (rev m).
Proof.
  split; [intros ->; apply trim_spec|]. intros (l & r & H1 & H2 & H3 & H4 & H5). now apply (trim_unique s m l r).
Qed.
Definition s_ (s : string) : list ascii := list_ascii_of_string s.
Lemma ex_split : split (s_ ",ab,,c,") "," = [s_ "ab"; s_ "c"] /\
  Forall (fun p => p <> [] /\ Forall (fun c => c <> ","%char /\ c <> newline) p) [s_ "ab"; s_ "c"] /\ join "," [s_ "ab"; s_ "c"] = s_ "ab,c".
Proof. repeat split; try reflexivity. repeat constructor; discriminate. Qed.
Lemma ex_trim : trim (s_ " [[ a b ] ") = s_ "a b".
Proof. reflexivity. Qed.

(* ---- numerals ---- *)
Lemma read_no_point dz n e : numeral_ok n -> nu_int n <> [] -> nu_frac n = None -> nu_exp n = Some e ->
  string_to_double (F := Rops dz) (show_numeral n) = Ok (numeral_value n * powerRZ 10 (Z.of_nat (List.length (show_expo e))))%R.
Proof. intros H Hi Hf He. apply read_any; auto. rewrite Hf, He. reflexivity. Qed.
Lemma read_leading_point dz n f : numeral_ok n -> nu_int n = [] -> nu_frac n = Some f ->
  string_to_double (F := Rops dz) (show_numeral n) = Ok (numeral_value n * powerRZ 10 (2 ^ 64))%R.
Proof. intros H Hi Hf. apply read_any; auto; [right; rewrite Hf; discriminate|]. now rewrite Hf, Hi. Qed.

Definition num_1e5 : numeral := mkNumeral false [1] None (Some (mkExpo false None [5])).
Definition num_p5 : numeral := mkNumeral false [] (Some [5]) None.
Definition num_ex : numeral := mkNumeral true [1; 2] (Some [5; 0]) (Some (mkExpo true (Some true) [0; 1])).
Lemma num_1e5_ok : numeral_ok num_1e5.
Proof.
  split; [repeat constructor; lia|]. split; [discriminate|]. split; [|reflexivity]. intros e E. injection E as <-.
  split; [discriminate|]. split; [repeat constructor; cbn; lia | reflexivity].
Qed.
Lemma num_p5_ok : numeral_ok num_p5.
Proof. split; [constructor|]. split; [|split; [discriminate | reflexivity]]. intros f E. injection E as <-. repeat constructor; lia. Qed.
Lemma num_ex_ok : numeral_ok num_ex.
Proof.
  split; [repeat constructor; lia|]. split; [intros f E; injection E as <-; repeat constructor; lia|]. split; [|reflexivity].
  intros e E. injection E as <-. split; [discriminate|]. split; [repeat constructor; cbn; lia | reflexivity].
Qed.
Lemma num_ex_readable : readable num_ex.
Proof. split; [discriminate|]. left. discriminate. Qed.
Lemma value_num_ex : show_numeral num_ex = s_ "-12.50E-01" /\ (numeral_value num_ex = -125 / 100)%R.
Proof.
  split; [reflexivity|]. unfold numeral_value. cbn [num_ex nu_neg nu_int nu_frac nu_exp expo_value ex_sign ex_digits app List.length].
  change (digits_value [1; 2; 5; 0]) with 1250. change (- digits_value [0; 1]) with (-1). change (- Z.of_nat 2) with (-2).
  unfold powerRZ. change (Pos.to_nat 2) with 2%nat. change (Pos.to_nat 1) with 1%nat. cbn [pow]. lra.
Qed.
Lemma value_num_1e5 : show_numeral num_1e5 = s_ "1e5" /\ (numeral_value num_1e5 = 100000)%R.
Proof.
  split; [reflexivity|]. unfold numeral_value. cbn [num_1e5 nu_neg nu_int nu_frac nu_exp expo_value ex_sign ex_digits app List.length].
  change (digits_value [1]) with 1. change (digits_value [5]) with 5. change (- Z.of_nat 0) with 0.
  unfold powerRZ. change (Pos.to_nat 5) with 5%nat. cbn [pow]. lra.
Qed.

Lemma no_point_refuted dz : exists n, numeral_ok n /\ nu_int n <> [] /\ (numeral_value n = 100000)%R /\ show_numeral n = s_ "1e5" /\
  string_to_double (F := Rops dz) (show_numeral n) = Ok (10000000)%R.
Proof.
  exists num_1e5. split; [apply num_1e5_ok|]. split; [discriminate|]. destruct value_num_1e5 as (Es & Ev). split; auto. split; auto.
  rewrite (read_no_point dz num_1e5 (mkExpo false None [5])); auto using num_1e5_ok; [|discriminate].
  f_equal. rewrite Ev. cbn [show_expo ex_upper ex_sign ex_digits app show map List.length]. change (Z.of_nat 2) with 2. unfold powerRZ.
  change (Pos.to_nat 2) with 2%nat. cbn [pow]. lra.
Qed.
Lemma big_power : (1 < powerRZ 10 (2 ^ 64))%R.
Proof.
  assert (P : forall k, 0 <= k -> (1 <= powerRZ 10 k)%R).
  { apply natlike_ind; [cbn; lra|]. intros k Hk Hp. rewrite <- Z.add_1_r, powerRZ_add by lra. rewrite powerRZ_1. lra. }
  assert (Q : forall k, 0 <= k -> (1 < powerRZ 10 (1 + k))%R).
  { intros k Hk. rewrite powerRZ_add by lra. rewrite powerRZ_1. specialize (P k Hk). lra. }
  exact (Q (2 ^ 64 - 1) ltac:(lia)).
Qed.
Lemma leading_point_refuted dz : exists n, numeral_ok n /\ (numeral_value n = 5 / 10)%R /\ show_numeral n = s_ ".5" /\
  string_to_double (F := Rops dz) (show_numeral n) <> Ok (numeral_value n).
Proof.
  exists num_p5. split; [apply num_p5_ok|].
  assert (Ev : (numeral_value num_p5 = 5 / 10)%R).
  { unfold numeral_value. cbn [num_p5 nu_neg nu_int nu_frac nu_exp app List.length]. change (digits_value [5]) with 5. change (- Z.of_nat 1) with (-1).
    unfold powerRZ. change (Pos.to_nat 2) with 2%nat. change (Pos.to_nat 1) with 1%nat. cbn [pow]. lra. }
  split; [exact Ev|]. split; [reflexivity|]. rewrite (read_leading_point dz num_p5 [5] num_p5_ok eq_refl eq_refl).
  pose proof big_power as B. revert B. generalize (powerRZ 10 (2 ^ 64)). intros x B E.
  assert (E' : (numeral_value num_p5 * x = numeral_value num_p5)%R) by (injection E as E; exact E).
  rewrite Ev in E'. lra.
Qed.

(* ---- number lists ---- *)
Definition ex_entries : list entry := [mkEntry (s_ "[ ") num_ex (s_ " ") ","; mkEntry [] num_ex (s_ "]") ";"].
Lemma ex_entries_ok : Forall entry_ok ex_entries /\ join_each (map show_entry ex_entries) = s_ "[ -12.50E-01 ,-12.50E-01];".
Proof.
  split; [|reflexivity]. constructor; [|constructor; [|constructor]].
  - split; [constructor; [now right|]; constructor; [now left; left | constructor]|]. split; [constructor; [now left; left | constructor]|]. split; [now left|]. split; [apply num_ex_ok | apply num_ex_readable].
  - split; [constructor|]. split; [constructor; [now right | constructor]|]. split; [now right|]. split; [apply num_ex_ok | apply num_ex_readable].
Qed.
Lemma closed_exist s : exists ps, closed_pieces delim s ps.
Proof. apply closed_pieces_exist, delim_dec. Qed.
Lemma unterminated_refuted dz : exists s, s = s_ "1,2" /\ delimited_to_vector (F := Rops dz) s = Ok [1%R].
Proof.
  exists (s_ "1,2"). split; auto.
  pose (n := mkNumeral false [1] None None).
  assert (Hn : numeral_ok n) by (repeat split; try discriminate; repeat constructor; lia).
  pose proof (read_entries dz [mkEntry [] n [] ","] (s_ "2")) as H. cbn [map en_num] in H.
  assert (Ev : (numeral_value n = 1)%R).
  { unfold numeral_value. cbn [n nu_neg nu_int nu_frac nu_exp app List.length]. change (digits_value [1]) with 1. change (- Z.of_nat 0) with 0. cbn [powerRZ]. lra. }
  rewrite Ev in H. apply H.
  - constructor; [|constructor]. split; [constructor|]. split; [constructor|]. split; [now left|]. split; [exact Hn|]. split; [discriminate | now right].
  - constructor; [|constructor]. intros [C|C]; discriminate C.
  - reflexivity.
Qed.
Lemma num_points : numeral_ok num_1e5 /\ nu_int num_1e5 <> [] /\ nu_frac num_1e5 = None /\ nu_exp num_1e5 = Some (mkExpo false None [5]) /\
  numeral_ok num_p5 /\ nu_int num_p5 = [] /\ nu_frac num_p5 = Some [5].
Proof. split; [apply num_1e5_ok|]. split; [discriminate|]. split; [reflexivity|]. split; [reflexivity|]. split; [apply num_p5_ok | split; reflexivity]. Qed.
Lemma split_both s d ps : pieces (fun c => c = d \/ c = newline) s (split s d) /\
  (pieces (fun c => c = d \/ c = newline) s ps -> ps = split s d).
Proof. split; [apply split_pieces|]. intros H. symmetry. now apply split_unique. Qed.
