(* Lemmas about the converter. *)
From Coq Require Import ZArith Bool List Lia.
From Verif Require Import Base BaseFacts VecUtils VecThms Convert ConvertSpec.
Import ListNotations.
Open Scope Z_scope.

Lemma vget_at {B} (l : list B) i x : 0 <= i -> nth_error l (Z.to_nat i) = Some x -> vget l i = Ok x.
Proof.
  intros Hi E. assert (Z.to_nat i < length l)%nat by (apply nth_error_Some; congruence).
  unfold vget. destruct (Z.leb_spec 0 i); [|lia]. destruct (Z.ltb_spec i (Z.of_nat (length l))); [|lia]. cbn [andb]. now rewrite E.
Qed.

Section Facts.
Context {A : Type}.

Lemma dimension_ok (s : any A) d : spline_dim s d -> 1 <= d <= 4 -> get_dimension s = Ok d.
Proof.
  intros (a & E) Hd. assert (C : d = 1 \/ d = 2 \/ d = 3 \/ d = 4) by lia. 
  destruct E as [-> | ->]; destruct C as [-> | [-> | [-> | ->]]]; reflexivity.
Qed.
Lemma dimension_bad (s : any A) : ~ is_spline s -> get_dimension s = Throw RuntimeError.
Proof.
  intros H. assert (G : forall d, 1 <= d <= 4 -> get_spline d s = Throw RuntimeError).
  { intros d Hd. destruct s as [e a|e a|]; cbn [get_spline]; auto; destruct (Z.eqb_spec e d) as [->|]; auto; exfalso; apply H; exists d; split; auto; exists a; auto. }
  unfold get_dimension. rewrite !G by lia. reflexivity.
Qed.
Lemma spline_dim_unique (s : any A) d e : spline_dim s d -> spline_dim s e -> d = e.
Proof. intros (a & [-> | ->]) (b & [E|E]); inversion E; reflexivity. Qed.

Lemma collect (f : Z -> bool) (body : Z -> list Z -> Res (list Z)) l : 
  (forall i acc, In i l -> body i acc = Ok (if f i then acc ++ [i] else acc)) ->
  forall acc, foldM (fun s i => body i s) l acc = Ok (acc ++ filter f l).
Proof.
  induction l as [|i l IH]; intros H acc; cbn [foldM filter]; [now rewrite app_nil_r|].
  rewrite H by now left. cbn [bind]. rewrite IH by (intros; apply H; now right).
  destruct (f i); auto. now rewrite <- app_assoc.
Qed.

Definition fits (splines : list (any A)) (m : Z) (i : Z) : bool :=
  match nth_error splines (Z.to_nat i) with
  | Some s => match get_dimension s with Ok d => d <=? m | _ => false end
  | None => false
  end.

Lemma zseq_seq n : zseq 0 n = map Z.of_nat (seq 0 n).
Proof.
  assert (G : forall n k, zseq (Z.of_nat k) n = map Z.of_nat (seq k n)); [|apply (G n O)].
  clear n. induction n as [|n IH]; intros k; cbn [zseq seq map]; auto. f_equal. rewrite <- IH. f_equal. lia.
Qed.
Lemma in_zseq n i : In i (map Z.of_nat (seq 0 n)) <-> 0 <= i < Z.of_nat n.
Proof.
  rewrite in_map_iff. split.
  - intros (k & <- & H). apply in_seq in H. lia.
  - intros H. exists (Z.to_nat i). rewrite in_seq. lia.
Qed.

Lemma positions_ok (splines : list (any A)) m : Forall is_spline splines ->
  positions_of_dimension splines m = Ok (filter (fits splines m) (map Z.of_nat (seq 0 (length splines)))).
Proof.
  intros H. unfold positions_of_dimension. rewrite for_up_foldM, Z.sub_0_r. unfold zlen. rewrite Nat2Z.id, zseq_seq.
  rewrite (collect (fits splines m)); auto. intros i acc Hi. apply in_zseq in Hi.
  destruct (nth_error splines (Z.to_nat i)) as [s|] eqn:Es; [|apply nth_error_None in Es; lia].
  unfold fits. rewrite (vget_at splines i s) by (auto; lia). rewrite Es. cbn [bind].
  apply nth_error_In in Es. rewrite Forall_forall in H. destruct (H _ Es) as (d & Hs & Hd).
  rewrite (dimension_ok s d Hs Hd). reflexivity.
Qed.
Lemma positions_bad (splines : list (any A)) m : ~ Forall is_spline splines -> positions_of_dimension splines m = Throw RuntimeError.
Proof.
  intros H. unfold positions_of_dimension. rewrite for_up_foldM, Z.sub_0_r. unfold zlen. rewrite Nat2Z.id.
  assert (G : forall good bad acc, splines = good ++ bad -> ~ Forall is_spline bad ->
    foldM (fun acc i => s <- vget splines i ;; d <- get_dimension s ;; Ok (if d <=? m then acc ++ [i] else acc))
      (zseq (zlen good) (length bad)) acc = Throw RuntimeError).
  { intros good bad; revert good. induction bad as [|s bad IH]; intros good acc E Hb; [exfalso; apply Hb; constructor|].
    cbn [length zseq foldM].
    assert (Ev : vget splines (zlen good) = Ok s).
    { apply vget_at; [unfold zlen; lia|]. unfold zlen. rewrite Nat2Z.id, E, nth_error_app2, Nat.sub_diag by lia. reflexivity. }
    rewrite Ev. cbn [bind].
    assert (D : is_spline s \/ ~ is_spline s).
    { destruct s as [e a|e a|].
      - destruct (Z_le_dec 1 e); [destruct (Z_le_dec e 4)|]; [left; exists e; split; [exists a; auto | lia] | |]; right; intros (d & (b & [E'|E']) & Hd); inversion E'; subst; lia.
      - destruct (Z_le_dec 1 e); [destruct (Z_le_dec e 4)|]; [left; exists e; split; [exists a; auto | lia] | |]; right; intros (d & (b & [E'|E']) & Hd); inversion E'; subst; lia.
      - right. intros (d & (b & [E'|E']) & Hd); discriminate. }
    destruct D as [D|D].
    - destruct D as (d & Hs & Hd). rewrite (dimension_ok s d Hs Hd). cbn [bind].
      replace (zlen good + 1) with (zlen (good ++ [s])) by (unfold zlen; rewrite app_length; cbn [length]; lia).
      apply IH; [rewrite <- app_assoc; exact E|]. intros Hf. apply Hb. constructor; auto. exists d; auto.
    - rewrite (dimension_bad s D). reflexivity. }
  apply (G [] splines []); auto.
Qed.

Lemma kept_filter {B} (P : B -> Prop) f (l : list B) : (forall x, In x l -> (f x = true <-> P x)) -> kept P l (filter f l).
Proof.
  induction l as [|x l IH]; intros H; cbn [filter]; [constructor|].
  assert (Hl : kept P l (filter f l)) by (apply IH; intros; apply H; now right).
  destruct (f x) eqn:E; [apply kept_in; auto; apply H; [now left | auto]|]. apply kept_out; auto.
  intros C. apply (H x) in C; [congruence | now left].
Qed.
Lemma kept_unique {B} (P : B -> Prop) l a b : kept P l a -> kept P l b -> a = b.
Proof.
  intros H; revert b; induction H as [|x l l' Hx H IH|x l l' Hx H IH]; intros b Hb; inversion Hb; subst; auto; try contradiction. f_equal; auto.
Qed.

Definition max_dim (f : format) : Z := match f with FIges => 2 | FIrit | FVtk => 3 | FXml => 4 | FError => 0 end.
Lemma fits_writable f (splines : list (any A)) p : Forall is_spline splines -> f <> FError -> 0 <= p ->
  (fits splines (max_dim f) p = true <-> writable f splines p).
Proof.
  intros H Hf Hp. unfold fits, writable, entry_at. destruct (nth_error splines (Z.to_nat p)) as [s|] eqn:Es.
  - pose proof (nth_error_In _ _ Es) as Hi. rewrite Forall_forall in H. destruct (H _ Hi) as (d & Hs & Hd).
    rewrite (dimension_ok s d Hs Hd), Z.leb_le. split.
    + intros Hm. exists s, d. repeat split; auto. destruct f; cbn in *; auto; contradiction.
    + intros (s' & d' & (_ & E) & Hs' & Hh). injection E as <-. rewrite <- (spline_dim_unique _ _ _ Hs Hs') in Hh. destruct f; cbn in *; auto; contradiction.
  - split; [discriminate|]. intros (s' & d' & (_ & E) & _). discriminate.
Qed.

Lemma mem_In l p : mem l p = true <-> In p l.
Proof. unfold mem. rewrite existsb_exists. split; [intros (x & Hx & E); apply Z.eqb_eq in E; now subst | intros H; exists p; split; auto; apply Z.eqb_refl]. Qed.

Definition possible (f : format) (splines : list (any A)) := filter (fits splines (max_dim f)) (map Z.of_nat (seq 0 (length splines))).
Lemma possible_writable f splines p : Forall is_spline splines -> f <> FError -> (In p (possible f splines) <-> writable f splines p).
Proof.
  intros H Hf. unfold possible. rewrite filter_In, in_zseq. split.
  - intros (Hp & E). apply fits_writable in E; auto. lia.
  - intros Hw. assert (Hw' := Hw). destruct Hw' as (s & d & (Hp & E) & _). split; [|apply fits_writable; auto].
    assert (Z.to_nat p < length splines)%nat by (apply nth_error_Some; congruence). lia.
Qed.

Definition report (f : format) (splines : list (any A)) (positions : list Z) : list Z := get_positions [] positions (possible f splines).
Lemma report_kept f splines positions : Forall is_spline splines -> f <> FError ->
  kept (writable f splines) (requested splines positions) (report f splines positions).
Proof.
  intros H Hf. unfold report, get_positions, requested. destruct positions as [|p ps].
  - unfold possible. apply kept_filter. intros p Hp. apply fits_writable; auto. apply in_zseq in Hp. lia.
  - cbn [app]. apply kept_filter. intros q _. rewrite mem_In. now apply possible_writable.
Qed.
Lemma report_writable f splines positions p : Forall is_spline splines -> f <> FError -> In p (report f splines positions) -> writable f splines p.
Proof.
  intros H Hf Hp. pose proof (report_kept f splines positions H Hf) as K. induction K as [|x l l' Hx K IH|x l l' Hx K IH]; auto; [contradiction|].
  destruct Hp as [<-|Hp]; auto.
Qed.
Lemma get_positions_report f splines positions written : positions <> [] ->
  get_positions written positions (possible f splines) = written ++ report f splines positions.
Proof. intros H. unfold report, get_positions. destruct positions; [contradiction | reflexivity]. Qed.

(* handing over the splines *)
Lemma filter_written (splines : list (any A)) w : (forall p, In p w -> exists s, entry_at splines p s) ->
  exists l, filter_vector splines w = Ok l /\ Forall2 (entry_at splines) w l.
Proof.
  intros H. assert (G : exists l, Forall2 (entry_at splines) w l).
  { induction w as [|p w IH]; [exists []; constructor|]. destruct IH as (l & Hl); [intros; apply H; now right|].
    destruct (H p) as (s & Hs); [now left|]. exists (s :: l). now constructor. }
  destruct G as (l & Hl). exists l. split; auto. apply filter_ok. clear H. induction Hl as [|p x w l (Hp & Hx) Hl IH]; constructor; auto.
  split; auto. split; auto. assert (Z.to_nat p < length splines)%nat by (apply nth_error_Some; congruence). unfold zlen. lia.
Qed.

(* ---- scattering ---- *)
Lemma scatter_filter {B} (g : Z -> bool) (ps : list Z) : forall pre pre' (sc : list B), length pre = length pre' -> (length ps <= length sc)%nat ->
  filter_vector (pre' ++ sc) (filter (fun i => g (nth (Z.to_nat i) (pre ++ ps) 0)) (zseq (zlen pre) (length ps))) =
  Ok (map snd (filter (fun x => g (fst x)) (combine ps sc))).
Proof.
  induction ps as [|p ps IH]; intros pre pre' sc Hl Hs; [reflexivity|].
  destruct sc as [|s sc]; [cbn [length] in Hs; lia|]. cbn [length zseq filter combine fst map].
  assert (En : nth (Z.to_nat (zlen pre)) (pre ++ p :: ps) 0 = p).
  { unfold zlen. rewrite Nat2Z.id, app_nth2, Nat.sub_diag by lia. reflexivity. }
  rewrite En. specialize (IH (pre ++ [p]) (pre' ++ [s]) sc).
  rewrite <- !app_assoc in IH. cbn [app] in IH.
  replace (zlen (pre ++ [p])) with (zlen pre + 1) in IH by (unfold zlen; rewrite app_length; cbn [length]; lia).
  rewrite !app_length in IH. cbn [length] in *. specialize (IH ltac:(lia) ltac:(lia)).
  destruct (g p); auto. cbn [map snd]. unfold filter_vector in *. cbn [mapM].
  destruct (Z.ltb_spec (zlen pre) (zlen (pre' ++ s :: sc))) as [_|C]; [|unfold zlen in C; rewrite app_length in C; cbn [length] in C; lia].
  assert (Ev : vget (pre' ++ s :: sc) (zlen pre) = Ok s).
  { apply vget_at; [unfold zlen; lia|]. unfold zlen. rewrite Nat2Z.id, Hl, nth_error_app2, Nat.sub_diag by lia. reflexivity. }
  rewrite Ev. cbn [bind]. rewrite IH. reflexivity.
Qed.

Lemma scattering_ok f splines positions scattering written : Forall is_spline splines -> f <> FError ->
  (positions = [] -> written = report f splines positions) ->
  (positions <> [] -> forall p, In p positions -> (In p written <-> writable f splines p)) ->
  (length (requested splines positions) <= length scattering)%nat ->
  exists sc, get_scattering scattering positions written = Ok sc /\
    kept (fun x => writable f splines (fst x)) (combine (requested splines positions) scattering) (combine (report f splines positions) sc) /\
    length sc = length (report f splines positions).
Proof.
  intros H Hf Hw1 Hw2 Hl.
  assert (G : exists g, (forall p, In p (requested splines positions) -> (g p = true <-> writable f splines p)) /\ (forall p, In p positions -> mem written p = g p) /\
     report f splines positions = filter g (requested splines positions)).
  { exists (mem (possible f splines)). split; [|split].
    - intros p _. rewrite mem_In. now apply possible_writable.
    - intros p Hp. destruct positions as [|q qs]; [contradiction|]. specialize (Hw2 ltac:(discriminate) p Hp).
      rewrite <- (possible_writable f splines p H Hf) in Hw2. rewrite <- !mem_In in Hw2.
      destruct (mem written p), (mem (possible f splines) p); intuition congruence.
    - symmetry. apply (kept_unique (writable f splines) (requested splines positions)); [|now apply report_kept].
      apply kept_filter. intros p _. rewrite mem_In. now apply possible_writable. }
  destruct G as (g & Hg & Hm & Er).
  assert (E : get_scattering scattering positions written = Ok (map snd (filter (fun x => g (fst x)) (combine (requested splines positions) scattering)))).
  { unfold get_scattering. destruct positions as [|q qs].
    - cbn [bind]. rewrite (Hw1 eq_refl), Er. cbn [requested] in Hl |- *. rewrite map_length, seq_length in Hl.
      pose proof (scatter_filter g (map Z.of_nat (seq 0 (length splines))) [] [] scattering eq_refl) as S. rewrite map_length, seq_length in S.
      specialize (S Hl). cbn [app] in S. rewrite <- S. f_equal. change (zlen (A := Z) []) with 0. rewrite <- zseq_seq. apply filter_ext_in.
      intros i Hi. rewrite zseq_seq in *. apply in_zseq in Hi. f_equal.
      rewrite (nth_indep _ 0 (Z.of_nat O)) by (rewrite map_length, seq_length; lia). rewrite (map_nth Z.of_nat), seq_nth by lia. lia.
    - rewrite for_up_foldM, Z.sub_0_r. unfold zlen at 1. rewrite Nat2Z.id.
      rewrite (collect (fun i => g (nth (Z.to_nat i) (q :: qs) 0))).
      + cbn [bind]. cbn [requested] in Hl |- *. pose proof (scatter_filter g (q :: qs) [] [] scattering eq_refl Hl) as S. exact S.
      + intros i acc Hi. rewrite zseq_seq in Hi. apply in_zseq in Hi. 
        rewrite (vget_at (q :: qs) i (nth (Z.to_nat i) (q :: qs) 0)); [|lia | apply nth_error_nth'; lia]. cbn [bind]. rewrite Hm; [reflexivity|]. apply nth_In. lia. }
  set (X := filter (fun x => g (fst x)) (combine (requested splines positions) scattering)) in *.
  assert (Ef : report f splines positions = map fst X).
  { rewrite Er. unfold X. clear - Hl. revert Hl. generalize (requested splines positions); intros l. revert scattering.
    induction l as [|p l IH]; intros sc Hl; [reflexivity|]. destruct sc as [|s sc]; [cbn [length] in Hl; lia|].
    cbn [filter combine fst]. cbn [length] in Hl. destruct (g p); cbn [map fst]; rewrite (IH sc) by lia; reflexivity. }
  exists (map snd X). split; [exact E|]. rewrite Ef. split; [|now rewrite !map_length].
  replace (combine (map fst X) (map snd X)) with X.
  - unfold X. apply kept_filter. intros (p & s) Hin. apply Hg. now apply in_combine_l in Hin.
  - generalize X; clear. intros l; induction l as [|(a, b) l IH]; cbn; congruence.
Qed.
End Facts.
