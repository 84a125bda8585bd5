(* The properties of the converter and of the file format detection, with examples. *)
From Coq Require Import ZArith Bool Ascii String List Lia.
From Verif Require Import Base BaseFacts VecUtils StrSpec StrOps StrFacts Convert ConvertSpec ConvertFacts.
Import ListNotations.
Open Scope Z_scope.

Lemma suffix_same (a b : list ascii) s : suffix_of a s -> suffix_of b s -> List.length a = List.length b -> a = b.
Proof.
  intros (x & ->) (y & E) Hl. apply (f_equal (@rev ascii)) in E. rewrite !rev_app_distr in E.
  assert (R : rev a = rev b).
  { apply (f_equal (firstn (List.length (rev a)))) in E. rewrite firstn_app, firstn_all, Nat.sub_diag in E. cbn [firstn] in E.
    rewrite app_nil_r in E. rewrite E. rewrite !rev_length, Hl, <- (rev_length b), firstn_app, firstn_all, Nat.sub_diag. cbn [firstn]. apply app_nil_r. }
  rewrite <- (rev_involutive a), R. apply rev_involutive.
Qed.
Lemma ext_short (x : string) s : suffix_of (of_string x) s -> suffix_of (of_string ".iges") s -> (String.length x = 4)%nat -> of_string x = of_string "iges".
Proof.
  intros Ha Hb Hx. apply (suffix_same _ _ s); auto.
  - destruct Hb as (r & ->). exists (r ++ ["."%char]). rewrite <- app_assoc. reflexivity.
  - clear - Hx. destruct x as [|a [|b [|c [|d [|e x]]]]]; try discriminate. reflexivity.
Qed.

Lemma format_long s : 5 <= zlen s < 2 ^ 63 -> forall f, f <> FError ->
  (get_format s = f <-> only_at_end (extension f) s).
Proof.
  intros Hs. assert (E : forall f, f <> FError -> (ends_with s (extension f) = true <-> only_at_end (extension f) s)).
  { intros f Hf. rewrite ends_with_spec; [|lia|destruct f; reflexivity]. unfold only_at_end. split; auto. intros [H|H]; auto. exfalso.
    assert (zlen (extension f) <= 5) by (destruct f; unfold zlen; cbn; lia). lia. }
  assert (I := E FIges ltac:(discriminate)). assert (T := E FIrit ltac:(discriminate)). assert (V := E FVtk ltac:(discriminate)). assert (X := E FXml ltac:(discriminate)). clear E.
  cbn [extension] in *. unfold get_format.
  assert (Dis : forall a b, a <> FError -> b <> FError -> only_at_end (extension a) s -> only_at_end (extension b) s -> a = b).
  { intros a b Ha Hb (A1 & _) (B1 & _).
    destruct a, b; try contradiction; try reflexivity; exfalso; cbn [extension] in *;
    first [ pose proof (suffix_same _ _ s A1 B1 eq_refl) as C; discriminate C
          | pose proof (ext_short _ s A1 B1 eq_refl) as C; discriminate C
          | pose proof (ext_short _ s B1 A1 eq_refl) as C; discriminate C ]. }
  assert (Not : forall t, ends_with s t = false -> ~ ends_with s t = true) by (intros t ->; discriminate).
  intros f Hf.
  destruct (ends_with s (of_string ".iges")) eqn:E1.
  { pose proof (proj1 I eq_refl) as E1'. split; [intros <-; auto | intros H; apply Dis; auto; discriminate]. }
  destruct (ends_with s (of_string ".itd")) eqn:E2.
  { pose proof (proj1 T eq_refl) as E2'. split; [intros <-; auto | intros H; apply Dis; auto; discriminate]. }
  destruct (ends_with s (of_string ".vtk")) eqn:E3.
  { pose proof (proj1 V eq_refl) as E3'. split; [intros <-; auto | intros H; apply Dis; auto; discriminate]. }
  destruct (ends_with s (of_string ".xml")) eqn:E4.
  { pose proof (proj1 X eq_refl) as E4'. split; [intros <-; auto | intros H; apply Dis; auto; discriminate]. }
  split; [intros <-; contradiction|]. intros H. exfalso. destruct f; cbn [extension] in H; [contradiction | apply I in H | apply T in H | apply V in H | apply X in H]; congruence.
Qed.
Lemma format_three s : zlen s = 3 -> get_format s = FIrit.
Proof.
  intros Hs. unfold get_format.
  assert (E : ends_with s (of_string ".iges") = false).
  { apply not_true_is_false. rewrite ends_with_spec; [|lia|reflexivity]. intros [((r & E) & _)|H].
    - rewrite E in Hs. unfold zlen in Hs. rewrite app_length in Hs. cbn in Hs. lia.
    - rewrite Hs in H. discriminate. }
  rewrite E. assert (E2 : ends_with s (of_string ".itd") = true).
  { rewrite ends_with_spec; [|lia|reflexivity]. right. now rewrite Hs. }
  now rewrite E2.
Qed.
Lemma format_four s : zlen s = 4 -> get_format s = FIges.
Proof.
  intros Hs. unfold get_format. assert (E2 : ends_with s (of_string ".iges") = true).
  { rewrite ends_with_spec; [|lia|reflexivity]. right. now rewrite Hs. }
  now rewrite E2.
Qed.
Lemma format_short s : zlen s <= 2 -> get_format s = FError.
Proof.
  intros Hs. assert (E : forall t, 4 <= zlen t < 10 -> ends_with s t = false).
  { intros t Ht. apply not_true_is_false. rewrite ends_with_spec by lia. intros [((r & E) & _)|H]; [|lia].
    apply (f_equal (@List.length ascii)) in E. rewrite app_length in E. unfold zlen in Ht, Hs. lia. }
  unfold get_format. rewrite !E by (unfold zlen; cbn; lia). reflexivity.
Qed.

Section Conv.
Context {A : Type}.
Implicit Types (splines : list (any A)) (positions : list Z) (scattering : list (list Z)).

Lemma writer_unfold f written splines positions scattering : Forall is_spline splines -> f <> FError ->
  get_writer f written splines positions scattering =
  let w := get_positions written positions (possible f splines) in
  (w, l <- filter_vector splines w ;;
      x <- match f with FVtk => get_scattering scattering positions w | _ => Ok [] end ;; Ok (l, x)).
Proof.
  intros H Hf. destruct f; try contradiction; cbn [get_writer]; unfold write_with; rewrite (positions_ok splines _ H); reflexivity.
Qed.

Lemma writable_entry f splines p : writable f splines p -> exists s, entry_at splines p s.
Proof. intros (s & d & H & _). now exists s. Qed.

Lemma report_in f splines positions : Forall is_spline splines -> f <> FError -> positions <> [] -> forall p, In p positions ->
  (In p (report f splines positions) <-> writable f splines p).
Proof.
  intros H Hf Hp p Hin. split; [now apply report_writable|]. intros Hw. unfold report, get_positions. destruct positions; [contradiction|].
  cbn [app]. apply filter_In. split; auto. apply mem_In. now apply possible_writable.
Qed.

(* a fresh converter *)
Lemma convert_fresh f splines positions scattering : Forall is_spline splines -> f <> FError ->
  (f = FVtk -> (List.length (requested splines positions) <= List.length scattering)%nat) ->
  exists written handed_splines sc,
    get_writer f [] splines positions scattering = (written, Ok (handed_splines, sc)) /\
    kept (writable f splines) (requested splines positions) written /\
    Forall2 (entry_at splines) written handed_splines /\
    (f = FVtk -> kept (fun x => writable f splines (fst x)) (combine (requested splines positions) scattering) (combine written sc) /\
                 List.length sc = List.length written).
Proof.
  intros H Hf Hsc. destruct (filter_written splines (report f splines positions)) as (l & El & Hl).
  { intros p Hp. apply (writable_entry f). eapply report_writable; eauto. }
  exists (report f splines positions), l.
  assert (S : exists sc, match f with FVtk => get_scattering scattering positions (report f splines positions) | _ => Ok [] end = Ok sc /\
     (f = FVtk -> kept (fun x => writable f splines (fst x)) (combine (requested splines positions) scattering) (combine (report f splines positions) sc) /\
                 List.length sc = List.length (report f splines positions))).
  { destruct f; try contradiction; [exists []; split; [reflexivity | discriminate] | exists []; split; [reflexivity | discriminate] | | exists []; split; [reflexivity | discriminate]].
    destruct (scattering_ok FVtk splines positions scattering (report FVtk splines positions) H Hf) as (sc & E1 & E2 & E3); auto.
    { intros Hp p Hin. now apply report_in. }
    exists sc. split; auto. }
  destruct S as (sc & Esc & Hs). exists sc. rewrite writer_unfold by auto. cbv zeta.
  fold (report f splines positions). rewrite El. cbn [bind]. rewrite Esc. cbn [bind].
  repeat split; auto using report_kept; apply Hs; auto.
Qed.
Lemma convert_not_spline f written splines positions scattering : ~ Forall is_spline splines ->
  get_writer f written splines positions scattering = (written, Throw RuntimeError).
Proof. intros H. destruct f; cbn [get_writer]; unfold write_with; rewrite ?(positions_bad splines _ H); reflexivity. Qed.

(* a converter used before: the old entries stay *)
Lemma convert_again f old splines positions scattering : Forall is_spline splines -> f <> FError -> positions <> [] ->
  exists new, kept (writable f splines) positions new /\ fst (get_writer f old splines positions scattering) = old ++ new.
Proof.
  intros H Hf Hp. exists (report f splines positions). split.
  - pose proof (report_kept f splines positions H Hf) as K. unfold requested in K. destruct positions; [contradiction | exact K].
  - rewrite writer_unfold by auto. cbv zeta. cbn [fst]. now apply get_positions_report.
Qed.
Lemma convert_again_all f old splines scattering : Forall is_spline splines -> f <> FError ->
  kept (writable f splines) (requested splines []) (fst (get_writer f old splines [] scattering)).
Proof. intros H Hf. rewrite writer_unfold by auto. cbv zeta. cbn [fst]. apply (report_kept f splines [] H Hf). Qed.

(* the same conversion twice: twice as many splines as scattering entries are handed to the vtk writer *)
Lemma convert_twice_vtk splines positions scattering w1 out1 : Forall is_spline splines -> positions <> [] ->
  get_writer FVtk [] splines positions scattering = (w1, Ok out1) -> (List.length positions <= List.length scattering)%nat ->
  exists out2, get_writer FVtk w1 splines positions scattering = (w1 ++ w1, Ok out2) /\
    List.length (fst out2) = (2 * List.length w1)%nat /\ List.length (snd out2) = List.length w1.
Proof.
  intros H Hp E1 Hsc. assert (Hf : FVtk <> FError) by discriminate.
  assert (Ew : w1 = report FVtk splines positions).
  { rewrite writer_unfold in E1 by auto. cbv zeta in E1. injection E1 as E1 _. rewrite <- E1. reflexivity. }
  rewrite writer_unfold by auto. cbv zeta. rewrite get_positions_report by auto. rewrite <- Ew.
  destruct (filter_written splines (w1 ++ w1)) as (l & El & Hl).
  { intros p Hin. apply (writable_entry FVtk). rewrite Ew in Hin. apply in_app_iff in Hin. destruct Hin as [Hin|Hin]; eapply report_writable; eauto. }
  destruct (scattering_ok FVtk splines positions scattering (w1 ++ w1) H Hf) as (sc & E3 & _ & E4); auto.
  - intros ->. contradiction.
  - intros _ p Hin. rewrite in_app_iff, Ew, (report_in FVtk splines positions H Hf Hp p Hin). tauto.
  - unfold requested. destruct positions; [contradiction | auto].
  - exists (l, sc). rewrite El, E3. cbn [bind fst snd]. repeat split.
    + assert (E : List.length (w1 ++ w1) = List.length l) by (clear - Hl; induction Hl; cbn [List.length]; auto). rewrite app_length in E. lia.
    + now rewrite E4, <- Ew.
Qed.
End Conv.

(* ---- examples ---- *)
Definition ex_objects : list (any nat) := [AnyB 1 10%nat; AnyN 4 11%nat; AnyN 2 12%nat; AnyB 3 13%nat].
Lemma ex_objects_ok : Forall is_spline ex_objects.
Proof.
  repeat constructor; [exists 1 | exists 4 | exists 2 | exists 3]; (split; [|lia]); eexists; [left | right | right | left]; reflexivity.
Qed.
Lemma ex_convert : get_writer FVtk [] ex_objects [2; 1; 0; 7] [[5; 5]; []; [4]; []] = ([2; 0], Ok ([AnyN 2 12%nat; AnyB 1 10%nat], [[5; 5]; [4]])) /\
  get_writer FIges [] ex_objects [] [] = ([0; 2], Ok ([AnyB 1 10%nat; AnyN 2 12%nat], [])).
Proof. split; reflexivity. Qed.
Lemma accumulated_refuted : exists splines positions scattering w1 out1 w2 out2,
  Forall (is_spline (A := nat)) splines /\
  get_writer FVtk [] splines positions scattering = (w1, Ok out1) /\
  get_writer FVtk w1 splines positions scattering = (w2, Ok out2) /\
  ~ kept (writable FVtk splines) (requested splines positions) w2 /\ List.length (fst out2) <> List.length (snd out2).
Proof.
  exists ex_objects, [0], [[3]], [0], ([AnyB 1 10%nat], [[3]]), [0; 0], ([AnyB 1 10%nat; AnyB 1 10%nat], [[3]]).
  split; [apply ex_objects_ok|]. split; [reflexivity|]. split; [reflexivity|]. split; [|discriminate].
  intros K. inversion K as [|x l l' _ K'|x l l' _ K']; subst; inversion K'.
Qed.

Lemma ends_with_missed_refuted : exists s t, suffix_of t s /\ ends_with s t = false.
Proof. exists (of_string "a.xml.xml"), (of_string ".xml"). split; [|reflexivity]. exists (of_string "a.xml"). reflexivity. Qed.
Lemma ends_with_short_refuted : exists s t, ~ suffix_of t s /\ ends_with s t = true.
Proof.
  exists (of_string "xyz"), (of_string ".itd"). split; [|reflexivity]. intros (r & E). apply (f_equal (@List.length ascii)) in E.
  rewrite app_length in E. cbn in E. lia.
Qed.
Lemma ex_format : get_format (of_string "dir.x/spline.iges") = FIges /\ get_format (of_string "a.itd") = FIrit /\ get_format (of_string "a.vtk") = FVtk /\
  get_format (of_string "a.xml") = FXml /\ get_format (of_string "a.txt") = FError /\ get_format (of_string "abc") = FIrit /\
  get_format (of_string ".xml") = FIges /\ get_format (of_string "a.xml.xml") = FError.
Proof. repeat split; reflexivity. Qed.
Lemma ex_starts : starts_with (of_string "spline") (of_string "spl") = true /\ starts_with (of_string "spline") (of_string "line") = false.
Proof. split; reflexivity. Qed.
Lemma ex_not_spline : ~ Forall is_spline [AnyB 5 1%nat].
Proof. intros H. inversion H as [|x l (d & (a & [E|E]) & Hd)]; subst; inversion E; subst; lia. Qed.
