(* Closing lemmas and examples for XML documents of any origin. *)
From Coq Require Import ZArith Ascii String List Bool Lia Reals Lra.
From Verif Require Import Base BaseFacts MultiIndex KnotVecSpec Spaces SpacesSpec SplineEval SplineSpec StrSpec StrOps StrFacts StrThms EqualThms Format Convert FormatSpec Xml XmlReadSpec XmlReadFacts.
Import ListNotations.
Open Scope Z_scope.

Lemma xml_document_read dz (es : list xml_entry) (xs : list source) :
  Forall2 (fun e x => writes_down e x /\ zlen (so_degs x) < 2 ^ 31 /\ exists first, describes x first) es xs ->
  exists os, read_xml (F := Rops dz) es = Ok os /\
    Forall2 (fun x o => exists first s, describes x first /\ holds (zlen (so_degs x)) o s /\ described x first s)
      (filter (fun x => (1 <=? zlen (so_degs x)) && (zlen (so_degs x) <=? 4)) xs) os.
Proof. apply document_read. Qed.

Lemma words_are t ws : split t " " = ws -> text_of_words t ws.
Proof. intros <-. apply split_pieces. Qed.

(* a straight line with the variables p, x, y and q at two control points *)
Definition dig (d : Z) : numeral := mkNumeral false [d] None None.
Lemma dig_good d : 0 <= d <= 9 -> good_numeral (dig d).
Proof.
  intros H. split; [|split; [discriminate | now right]]. split; [repeat constructor; lia|]. split; [discriminate|]. split; [discriminate | reflexivity].
Qed.
Lemma dig_value d : numeral_value (dig d) = IZR d.
Proof. unfold numeral_value, dig. cbn [nu_neg nu_int nu_frac nu_exp app List.length]. change (digits_value [d]) with d. change (- Z.of_nat 0) with 0. cbn [powerRZ]. ring. Qed.
Definition xml_src : source :=
  mkSource [s_ "p"; s_ "x"; s_ "y"; s_ "q"] 2 [[dig 9; dig 1; num_ex; dig 8]; [dig 7; dig 2; dig 3; dig 6]] (Some [dig 1; dig 2]) [1] [[dig 0; dig 0; dig 1; dig 1]].
Definition xml_ent : xml_entry :=
  mkXml (s_ "1") (s_ "2") (s_ "4") (s_ "2") (s_ "p  x y q") (s_ "9 1 -12.50E-01 8" ++ newline :: s_ " 7 2 3   6 ") (Some (s_ "1 2")) (s_ " 1")
    [s_ "0 0 " ++ newline :: s_ "1 1"].
Lemma xml_ent_writes : writes_down xml_ent xml_src.
Proof.
  split.
  1-4: reflexivity.
  - apply words_are. vm_compute. reflexivity.
  - apply words_are. vm_compute. reflexivity.
  - apply words_are. vm_compute. reflexivity.
  - apply words_are. vm_compute. reflexivity.
  - constructor; [|constructor]. apply words_are. vm_compute. reflexivity.
Qed.
Lemma xml_src_describes : describes xml_src 1.
Proof.
  split; cbn [so_names so_dim so_rows so_weights so_degs so_knots xml_src].
  - constructor; [|constructor]. cbn [map]. rewrite !dig_value. pose proof ex_line_good as H. now inversion H.
  - reflexivity.
  - repeat constructor.
  - intros ns E. injection E as <-. split; [reflexivity|]. repeat (constructor; [apply dig_good; lia|]). constructor.
  - constructor; [|constructor; [|constructor]]; repeat (constructor; [first [apply dig_good; lia | split; [apply num_ex_ok | apply num_ex_readable]]|]); constructor.
  - constructor; [|constructor]. repeat (constructor; [apply dig_good; lia|]). constructor.
  - lia.
  - left. exists [s_ "p"], [s_ "y"; s_ "q"]. split; [reflexivity|]. split; [|reflexivity]. intros [H|[]]. discriminate.
  - vm_compute. discriminate.
  - split; [reflexivity|]. split; [reflexivity|]. repeat constructor.
Qed.
Lemma xml_source_example :
  Forall2 (fun e x => writes_down e x /\ zlen (so_degs x) < 2 ^ 31 /\ exists first, describes x first) [xml_ent; xml_ent] [xml_src; xml_src].
Proof.
  assert (H : writes_down xml_ent xml_src /\ zlen (so_degs xml_src) < 2 ^ 31 /\ exists first, describes xml_src first).
  { split; [exact xml_ent_writes|]. split; [reflexivity|]. exists 1. exact xml_src_describes. }
  constructor; auto.
Qed.
(* the second coordinate of the first control point is the variable y of the first row *)
Lemma xml_source_point dz (s : spline (Rops dz)) : described xml_src 1 s -> coordinate s [0] 1 = (-125 / 100)%R.
Proof.
  intros D. etransitivity; [apply (ds_points _ _ _ D [0] 1) with (n0 := dig 0)|].
  - rewrite (wf_npts _ (ds_wf _ _ _ D)), (ds_knots _ _ _ D), (ds_degs _ _ _ D). left. reflexivity.
  - cbn. lia.
  - assert (E : position (npts_of s) [0] = 0) by (destruct (npts_of s) as [|n l]; [reflexivity|]; cbn [position]; destruct l; cbn [position]; lia).
    rewrite E. exact (proj2 value_num_ex).
Qed.

(* a count larger than the number of rows, or a row that is too short: accesses beyond the values *)
Lemma xml_short dz (e : xml_entry) (ns : list numeral) (vars dim points : Z) :
  text_of_numbers (xe_values e) ns -> Forall good_numeral ns -> split (xe_names e) " " = [s_ "x"] \/ ~ In (s_ "x") (split (xe_names e) " ") ->
  xe_vars e = int_str vars -> xe_space_dim e = int_str dim -> xe_points e = int_str points ->
  1 <= dim <= vars -> vars < 2 ^ 31 -> 0 <= points < 2 ^ 31 -> zlen ns < (points - 1) * vars + dim -> 1 <= points ->
  read_xml (F := Rops dz) [e] = UB.
Proof.
  intros T G Hx Ev Ed Ep Hd Hv Hp Hs H1. unfold read_xml. cbn [foldM].
  assert (EP : xml_get_points (F := Rops dz) e = UB).
  { unfold xml_get_points. rewrite Ev, Ed, Ep, !XmlFacts.stoi_int by lia.
    assert (E0 : find_x 0 (split (xe_names e) " ") = 0) by (apply find_first; destruct Hx as [-> | Hx]; [left; exists [], []; repeat split; intros [] | right; auto]).
    rewrite E0.
    match goal with |- bind _ ?k = _ => transitivity (bind (Ok (map numeral_value ns)) k); [exact (f_equal (fun m : Res (list R) => bind m k) (numbers_read (dz := dz) _ ns T G))|] end.
    cbn [bind].
    assert (L : forall n lo, 0 <= lo -> lo + Z.of_nat n = points -> (1 <= n)%nat ->
      mapM (fun i => mapM (fun j => vget (map numeral_value ns) (i * vars + j)) (zseq 0 (Z.to_nat dim))) (zseq lo n) = UB).
    { assert (M : forall i, mapM (fun j => vget (map numeral_value ns) (i * vars + j)) (zseq 0 (Z.to_nat dim)) = UB \/
         exists r, mapM (fun j => vget (map numeral_value ns) (i * vars + j)) (zseq 0 (Z.to_nat dim)) = Ok r).
      { intros i. generalize (zseq 0 (Z.to_nat dim)). induction l as [|j l IH]; cbn [mapM]; [eauto|].
        destruct (vget (map numeral_value ns) (i * vars + j)) eqn:E; cbn [bind]; auto; [|now apply vget_not_throw in E].
        destruct IH as [-> | (r & ->)]; cbn [bind]; eauto. }
      induction n as [|n IH]; intros lo H0 Hl Hn; [lia|]. cbn [zseq mapM].
      destruct (M lo) as [-> | (r & E)]; [reflexivity|]. rewrite E. cbn [bind].
      destruct n as [|n].
      - exfalso. assert (lo = points - 1) by lia. subst lo.
        assert (U : forall l, In (dim - 1) l -> mapM (fun j => vget (map numeral_value ns) ((points - 1) * vars + j)) l <> Ok r).
        { intros l Hi E'. apply mapM_inv in E'. clear - Hi E' Hs Hd. induction E' as [|a b l r A E' IH]; [destruct Hi|]. destruct Hi as [-> | Hi]; [|auto].
          rewrite vget_out in A; [discriminate|]. unfold zlen in *. rewrite map_length. lia. }
        apply (U (zseq 0 (Z.to_nat dim))); auto. apply zseq_In. lia.
      - rewrite IH by lia. reflexivity. }
    rewrite L by lia. reflexivity. }
  rewrite EP. reflexivity.
Qed.
Definition xml_short_ent : xml_entry := mkXml (s_ "1") (s_ "1") (s_ "1") (s_ "3") (s_ "x") (s_ "4 5") None (s_ "1") [s_ "0 0 1 2 2"].
Lemma xml_short_example : text_of_numbers (xe_values xml_short_ent) [dig 4; dig 5] /\ Forall good_numeral [dig 4; dig 5] /\
  split (xe_names xml_short_ent) " " = [s_ "x"] /\ xe_vars xml_short_ent = int_str 1 /\ xe_space_dim xml_short_ent = int_str 1 /\ xe_points xml_short_ent = int_str 3 /\
  zlen [dig 4; dig 5] < (3 - 1) * 1 + 1.
Proof.
  split; [apply words_are; vm_compute; reflexivity|]. split; [repeat (constructor; [apply dig_good; lia|]); constructor|]. repeat split; reflexivity.
Qed.
