(* C39 prefix and suffix tests and file format dispatch, C42 converter position filtering. *)
From Coq Require Import ZArith Ascii String List.
From Verif Require Import Base StrSpec StrOps StrFacts Convert ConvertSpec ConvertFacts ConvertThms.
Import ListNotations.
Open Scope Z_scope.

Theorem C39_starts_with : forall s t, starts_with s t = true <-> prefix_of t s.
Proof. exact starts_with_spec. Qed.
Print Assumptions C39_starts_with.

(* the suffix test accepts suffixes that do not occur earlier, and strings one character too short *)
Theorem C39_ends_with : forall s t, zlen s < 2 ^ 63 -> zlen t < 2 ^ 63 ->
  (ends_with s t = true <-> (suffix_of t s /\ forall n, (n < List.length s - List.length t)%nat -> ~ occurs_at t s n) \/ zlen t = zlen s + 1).
Proof. exact ends_with_spec. Qed.
Print Assumptions C39_ends_with.

Theorem C39_missed_refuted : exists s t, suffix_of t s /\ ends_with s t = false.
Proof. exact ends_with_missed_refuted. Qed.
Print Assumptions C39_missed_refuted.

Theorem C39_accepted_refuted : exists s t, ~ suffix_of t s /\ ends_with s t = true.
Proof. exact ends_with_short_refuted. Qed.
Print Assumptions C39_accepted_refuted.

(* names of at least five characters are recognised by their extension if it occurs only at the end *)
Theorem C39_format : forall s, 5 <= zlen s < 2 ^ 63 -> forall f, f <> FError -> (get_format s = f <-> only_at_end (extension f) s).
Proof. exact format_long. Qed.
Print Assumptions C39_format.

(* the contents of shorter names do not matter *)
Theorem C39_three : forall s, zlen s = 3 -> get_format s = FIrit.
Proof. exact format_three. Qed.
Print Assumptions C39_three.
Theorem C39_four : forall s, zlen s = 4 -> get_format s = FIges.
Proof. exact format_four. Qed.
Print Assumptions C39_four.
Theorem C39_short : forall s, zlen s <= 2 -> get_format s = FError.
Proof. exact format_short. Qed.
Print Assumptions C39_short.

Example C39_example : get_format (of_string "dir.x/spline.iges") = FIges /\ get_format (of_string "a.itd") = FIrit /\ get_format (of_string "a.vtk") = FVtk /\
  get_format (of_string "a.xml") = FXml /\ get_format (of_string "a.txt") = FError /\ get_format (of_string "abc") = FIrit /\
  get_format (of_string ".xml") = FIges /\ get_format (of_string "a.xml.xml") = FError.
Proof. exact ex_format. Qed.
Example C39_example_starts : starts_with (of_string "spline") (of_string "spl") = true /\ starts_with (of_string "spline") (of_string "line") = false.
Proof. exact ex_starts. Qed.

(* a new converter reports the requested positions the format can hold, and hands over those splines
   and, for vtk, their scattering entries *)
Theorem C42_fresh : forall A f (splines : list (any A)) positions scattering, Forall is_spline splines -> f <> FError ->
  (f = FVtk -> (List.length (requested splines positions) <= List.length scattering)%nat) ->
  exists written handed_splines sc,
    get_writer f [] splines positions scattering = (written, Ok (handed_splines, sc)) /\
    kept (writable f splines) (requested splines positions) written /\
    Forall2 (entry_at splines) written handed_splines /\
    (f = FVtk -> kept (fun x => writable f splines (fst x)) (combine (requested splines positions) scattering) (combine written sc) /\
                 List.length sc = List.length written).
Proof. exact @convert_fresh. Qed.
Print Assumptions C42_fresh.

(* the filtered list is determined *)
Theorem C42_kept_unique : forall B (P : B -> Prop) l a b, kept P l a -> kept P l b -> a = b.
Proof. exact @kept_unique. Qed.
Print Assumptions C42_kept_unique.

Theorem C42_not_spline : forall A f written (splines : list (any A)) positions scattering, ~ Forall is_spline splines ->
  get_writer f written splines positions scattering = (written, Throw RuntimeError).
Proof. exact @convert_not_spline. Qed.
Print Assumptions C42_not_spline.

(* a converter that was used before keeps its old positions when positions are requested *)
Theorem C42_again : forall A f old (splines : list (any A)) positions scattering, Forall is_spline splines -> f <> FError -> positions <> [] ->
  exists new, kept (writable f splines) positions new /\ fst (get_writer f old splines positions scattering) = old ++ new.
Proof. exact @convert_again. Qed.
Print Assumptions C42_again.
Theorem C42_again_all : forall A f old (splines : list (any A)) scattering, Forall is_spline splines -> f <> FError ->
  kept (writable f splines) (requested splines []) (fst (get_writer f old splines [] scattering)).
Proof. exact @convert_again_all. Qed.
Print Assumptions C42_again_all.

(* repeating a vtk conversion hands over twice as many splines as scattering entries *)
Theorem C42_twice_vtk : forall A (splines : list (any A)) positions scattering w1 out1, Forall is_spline splines -> positions <> [] ->
  get_writer FVtk [] splines positions scattering = (w1, Ok out1) -> (List.length positions <= List.length scattering)%nat ->
  exists out2, get_writer FVtk w1 splines positions scattering = (w1 ++ w1, Ok out2) /\
    List.length (fst out2) = (2 * List.length w1)%nat /\ List.length (snd out2) = List.length w1.
Proof. exact @convert_twice_vtk. Qed.
Print Assumptions C42_twice_vtk.

Theorem C42_accumulated_refuted : exists splines positions scattering w1 out1 w2 out2,
  Forall (is_spline (A := nat)) splines /\
  get_writer FVtk [] splines positions scattering = (w1, Ok out1) /\
  get_writer FVtk w1 splines positions scattering = (w2, Ok out2) /\
  ~ kept (writable FVtk splines) (requested splines positions) w2 /\ List.length (fst out2) <> List.length (snd out2).
Proof. exact accumulated_refuted. Qed.
Print Assumptions C42_accumulated_refuted.

Example C42_example : Forall is_spline ex_objects /\
  get_writer FVtk [] ex_objects [2; 1; 0; 7] [[5; 5]; []; [4]; []] = ([2; 0], Ok ([AnyN 2 12%nat; AnyB 1 10%nat], [[5; 5]; [4]])) /\
  get_writer FIges [] ex_objects [] [] = ([0; 2], Ok ([AnyB 1 10%nat; AnyN 2 12%nat], [])).
Proof. exact (conj ex_objects_ok ex_convert). Qed.
Example C42_example_not_spline : ~ Forall is_spline [AnyB 5 1%nat].
Proof. exact ex_not_spline. Qed.
