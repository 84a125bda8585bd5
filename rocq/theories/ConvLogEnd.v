(* The files the converter programs write: read back they are the splines asked for. *)
From Coq Require Import ZArith Bool Ascii String List Lia Reals.
From Verif Require Import Base BaseFacts StrSpec StrOps Format FormatFacts FormatSpec Spaces SplineEval SplineSpec Irit IritThms Xml XmlThms Convert ConvertSpec ConvertFacts ConvertThms ConvLog ConvLogSpec ConvLogFacts ConvLogThms.
Import ListNotations.
Open Scope Z_scope.

Lemma kept_all {B} (P : B -> Prop) l l' : kept P l l' -> Forall P l' /\ (List.length l' <= List.length l)%nat.
Proof. induction 1 as [|x l l' Hx H (I1 & I2)|x l l' Hx H (I1 & I2)]; cbn [List.length]; split; auto; lia. Qed.

Section End_.
Context {dz : R -> R}.
Notation F := (Rops dz).
Notation obj := (any (spline F)).

Lemma entry_pair {A B} (R : A -> B -> Prop) l m p x : Forall2 R l m -> entry_at l p x -> exists y, entry_at m p y /\ R x y.
Proof.
  intros H (Hp & E). assert (G : forall n, nth_error l n = Some x -> exists y, nth_error m n = Some y /\ R x y).
  { clear - H. induction H as [|a b l m Hab H IH]; intros [|n] E; try discriminate E; [injection E as <-; exists b; auto|]. now apply IH. }
  destruct (G _ E) as (y & Ey & Hy). exists y. split; [split; auto | auto].
Qed.
Lemma choose f (Q : Z -> obj -> spline F -> Prop) splines ss written chosen :
  Forall2 (fun o s => is_spline o /\ forall d, spline_dim o d -> ConvertSpec.holds f d -> Q d o s) splines ss ->
  Forall (writable f splines) written -> Forall2 (entry_at splines) written chosen ->
  exists sc, Forall2 (entry_at ss) written sc /\ Forall2 (fun o s => exists d, Q d o s) chosen sc.
Proof.
  intros HR Hw H. induction H as [|p o w ch Hp H IH]; [exists []; split; constructor|].
  inversion Hw as [|x y Hx Hy]; subst. destruct (IH Hy) as (sc & A & B).
  destruct (entry_pair _ _ _ _ _ HR Hp) as (s & Es & _ & Hs). destruct Hx as (o' & d & (_ & Eo) & Hd & Hh). destruct Hp as (_ & Eo'). rewrite Eo in Eo'. injection Eo' as ->.
  exists (s :: sc). split; constructor; auto. exists d. auto.
Qed.
Lemma pair_back {A B} (P : A -> B -> Prop) (E : Z -> A -> Prop) w l m : Forall2 E w l -> Forall2 P l m -> Forall2 (fun p y => exists x, E p x /\ P x y) w m.
Proof. intros H. revert m. induction H as [|p x w l Hp H IH]; intros m Hm; inversion Hm; subst; constructor; eauto. Qed.

Lemma to_xml reader fmt tol open time arg text ls bs request (splines : list obj) ss :
  ~ help_argument arg -> open arg = Some text -> file_of ls text -> log_lines bs ls -> zlen text < 2 ^ 63 -> asks bs request ->
  reader (last (input_paths bs) []) = Ok splines ->
  Forall2 (fun o s => is_spline o /\ forall d, spline_dim o d -> ConvertSpec.holds FXml d -> xml_ready fmt tol d o s) splines ss ->
  exists written doc os' ss',
    kept (writable FXml splines) (requested splines request) written /\
    program (F := F) toward_zero FXml reader (fun chosen _ => write_xml (F := F) fmt chosen) open time [arg] =
      Ok (Converted (last (output_paths bs) []) doc (log_lines_written time written (last (input_paths bs) []) (last (output_paths bs) []))) /\
    read_xml (F := F) doc = Ok os' /\ Forall2 (fun o' s' => exists d, FormatSpec.holds d o' s') os' ss' /\
    Forall2 (fun p s' => exists s, entry_at ss p s /\ plain_back fmt tol s s') written ss'.
Proof.
  intros Hh Ho Hfile Hb Ht Ha Hr HR.
  assert (Hs : Forall is_spline splines) by (clear - HR; induction HR as [|o s l m (H & _) HR IH]; constructor; auto).
  destruct (program_runs (dz := dz) FXml reader (fun chosen _ => write_xml (F := F) fmt chosen) open time arg text ls bs request splines) as (w & ch & sc & Hk & Hc & _ & _ & E); auto; try discriminate.
  destruct (choose FXml (xml_ready fmt tol) splines ss w ch HR (proj1 (kept_all _ _ _ Hk)) Hc) as (sch & S1 & S2).
  destruct (xml_round fmt tol ch sch S2) as (doc & os' & ss' & E1 & E2 & H1 & H2).
  exists w, doc, os', ss'. split; [auto|]. split; [rewrite E, E1; reflexivity|]. repeat split; auto. eapply pair_back; eauto.
Qed.
Lemma to_irit reader fmt tol open time arg text ls bs request (splines : list obj) ss :
  ~ help_argument arg -> open arg = Some text -> file_of ls text -> log_lines bs ls -> zlen text < 2 ^ 63 -> asks bs request ->
  reader (last (input_paths bs) []) = Ok splines -> zlen (requested splines request) < 2 ^ 31 - 1 ->
  Forall2 (fun o s => is_spline o /\ forall d, spline_dim o d -> ConvertSpec.holds FIrit d -> irit_ready fmt tol d o s) splines ss ->
  exists written out os' ss',
    kept (writable FIrit splines) (requested splines request) written /\
    program (F := F) toward_zero FIrit reader (fun chosen _ => write_irit (F := F) fmt chosen) open time [arg] =
      Ok (Converted (last (output_paths bs) []) out (log_lines_written time written (last (input_paths bs) []) (last (output_paths bs) []))) /\
    read_irit (F := F) toward_zero out = Ok os' /\ Forall2 (fun o' s' => exists d, FormatSpec.holds d o' s') os' ss' /\
    Forall2 (fun p s' => exists s, entry_at ss p s /\ irit_back fmt tol s s') written ss'.
Proof.
  intros Hh Ho Hfile Hb Ht Ha Hr Hn HR.
  assert (Hs : Forall is_spline splines) by (clear - HR; induction HR as [|o s l m (H & _) HR IH]; constructor; auto).
  destruct (program_runs (dz := dz) FIrit reader (fun chosen _ => write_irit (F := F) fmt chosen) open time arg text ls bs request splines) as (w & ch & sc & Hk & Hc & _ & _ & E); auto; try discriminate.
  destruct (choose FIrit (irit_ready fmt tol) splines ss w ch HR (proj1 (kept_all _ _ _ Hk)) Hc) as (sch & S1 & S2).
  assert (L : zlen ch < 2 ^ 31 - 1).
  { pose proof (proj2 (kept_all _ _ _ Hk)). assert (List.length w = List.length ch) by (clear - Hc; induction Hc; cbn [List.length]; auto). unfold zlen in *. lia. }
  destruct (irit_round fmt tol ch sch S2 L) as (doc & os' & ss' & E1 & E2 & H1 & H2).
  exists w, doc, os', ss'. split; [auto|]. split; [rewrite E, E1; reflexivity|]. repeat split; auto. eapply pair_back; eauto.
Qed.

(* ---- example: the two lines of the format examples, asked for backwards ---- *)
Definition end_lines : list str := [of_string "input:"; of_string "in.itd"; of_string "output:"; of_string "out.xml"; of_string "options:"; of_string "1"; of_string "0"].
Definition end_blocks : list block := [BInput (of_string "in.itd"); BOutput (of_string "out.xml"); BPositions [1; 0]].
Lemma end_log : file_of end_lines (text_of end_lines) /\ log_lines end_blocks end_lines /\ asks end_blocks [1; 0].
Proof.
  split; [split; [apply one_lines_dec; reflexivity | left; reflexivity]|]. split.
  - apply ll_input; [exists []; reflexivity|]. apply ll_output; [exists []; reflexivity|].
    apply (ll_positions_end (of_string "options:") [1; 0]); [exists []; reflexivity|]. repeat (apply Forall_cons; [unfold number; lia|]); apply Forall_nil.
  - right. split; [|split; [reflexivity | discriminate]]. intros H. repeat (destruct H as [H|H]; [discriminate H|]). destruct H.
Qed.
End End_.
Lemma end_splines dz : Forall2 (fun (o : any (spline (Rops dz))) s => is_spline o /\ forall d, spline_dim o d -> ConvertSpec.holds FXml d -> xml_ready fixed6 (1 / 2000000) d o s)
    [irit_ex_any None; irit_ex_any (Some (1/3)%R)] [irit_ex_line None; irit_ex_line (Some (1/3)%R)] /\
  Forall2 (fun (o : any (spline (Rops dz))) s => is_spline o /\ forall d, spline_dim o d -> ConvertSpec.holds FIrit d -> irit_ready fixed6 (1 / 2000000) d o s)
    [irit_ex_any None; irit_ex_any (Some (1/3)%R)] [irit_ex_line None; irit_ex_line (Some (1/3)%R)].
Proof.
  assert (H : forall (o : any (spline (Rops dz))) s d, FormatSpec.holds d o s -> spline_dim o d).
  { intros o s d (_ & [(-> & _)|(-> & _)]); exists s; auto. }
  split.
  - generalize (xml_ex_two dz). generalize [irit_ex_any (dz := dz) None; irit_ex_any (Some (1/3)%R)]. generalize [irit_ex_line (dz := dz) None; irit_ex_line (Some (1/3)%R)].
    intros ss os G. induction G as [|o s os ss (d & Hd) G IH]; constructor; auto. pose proof (H _ _ _ (xr_holds _ _ _ _ _ Hd)) as D. split.
    + exists d. split; auto. apply Hd.
    + intros e He _. now rewrite (spline_dim_unique _ _ _ He D).
  - generalize (irit_ex_two dz). generalize [irit_ex_any (dz := dz) None; irit_ex_any (Some (1/3)%R)]. generalize [irit_ex_line (dz := dz) None; irit_ex_line (Some (1/3)%R)].
    intros ss os G. induction G as [|o s os ss (d & Hd) G IH]; constructor; auto. pose proof (H _ _ _ (ir_holds _ _ _ _ _ Hd)) as D. split.
    + exists d. split; auto. pose proof (ir_dim _ _ _ _ _ Hd). lia.
    + intros e He _. now rewrite (spline_dim_unique _ _ _ He D).
Qed.
