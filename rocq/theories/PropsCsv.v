(** Property theorems about data files (C37, C38, C83). *)
From Coq Require Import Ascii String List Bool Arith Lia.
From Verif Require Import Base Str Csv.
Import ListNotations.

(** * Specification *)

(** Header names that can be written: no tab or line break inside and the last one
    ends with a visible character. *)
Definition printable (headers : list str) : Prop :=
  Forall (fun h => ~ In tab h /\ ~ In (ascii_of_nat 10) h /\ ~ In (ascii_of_nat 13) h) headers /\
  exists hs w c, headers = (hs ++ [(w ++ [c])])%list /\ is_ws c = false.

(** A block of samples: as many variables as headers, [n] samples of each. *)
Definition block {V} (headers : list str) (b : nat * list (list V)) : Prop :=
  length (snd b) = length headers /\ Forall (fun var => length var = fst b) (snd b).

(** The file after the blocks have been written one after the other, the first
    one with [append = False]. *)
Definition written {V} (d : V) (headers : list str) (b : nat * list (list V)) (bs : list (nat * list (list V)))
  : list (line V) :=
  fold_left (fun f b' => write_csv d f (fst b') (snd b') headers true) bs
            (write_csv d [] (fst b) (snd b) headers false).

(** All the samples of variable [k]. *)
Definition samples {V} (bs : list (nat * list (list V))) (k : nat) : list V := concat (map (fun b => nth k (snd b) []) bs).
Definition total {V} (bs : list (nat * list (list V))) : nat := fold_right (fun b n => fst b + n) 0 bs.

(** [s] selects header number [k]. *)
Definition selects (headers : list str) (s : str) (k : nat) : Prop :=
  exists h, nth_error headers k = Some h /\ slower h = slower s.

(** * Lemmas *)
Lemma streqb_spec : forall a b, reflect (a = b) (streqb a b).
Proof. intros a b. unfold streqb. destruct (list_eq_dec ascii_dec a b); constructor; auto. Qed.

Lemma split_on_notin : forall c s, ~ In c s -> split_on c s = [s].
Proof.
  induction s as [|x s IH]; intros H; [reflexivity|]. simpl.
  destruct (Ascii.eqb_spec x c) as [->|N]; [exfalso; apply H; left; reflexivity|].
  rewrite IH; [reflexivity|]. intros K. apply H. right. exact K.
Qed.
Lemma split_on_cons : forall c s t, ~ In c s -> split_on c (s ++ c :: t) = s :: split_on c t.
Proof.
  induction s as [|x s IH]; intros t H; simpl.
  - rewrite Ascii.eqb_refl. reflexivity.
  - destruct (Ascii.eqb_spec x c) as [->|N]; [exfalso; apply H; left; reflexivity|].
    rewrite IH; [reflexivity|]. intros K. apply H. right. exact K.
Qed.
Lemma split_join : forall c l, l <> [] -> Forall (fun s => ~ In c s) l -> split_on c (join c l) = l.
Proof.
  intros c l. induction l as [|s l IH]; intros N F; [congruence|]. inversion F; subst.
  destruct l as [|t l]; [apply split_on_notin; assumption|].
  change (join c (s :: t :: l)) with (s ++ c :: join c (t :: l)).
  rewrite split_on_cons by assumption. rewrite IH; [reflexivity|discriminate|assumption].
Qed.

Lemma lstrip_id : forall c s, is_ws c = false -> lstrip (c :: s) = c :: s.
Proof. intros c s H. simpl. rewrite H. reflexivity. Qed.
Lemma strip_id : forall c s d, is_ws c = false -> is_ws d = false -> strip (c :: s ++ [d]) = c :: s ++ [d].
Proof.
  intros c s d C D. unfold strip.
  assert (E : rev (c :: s ++ [d]) = d :: rev (c :: s)) by (change (c :: s ++ [d]) with ((c :: s) ++ [d]); apply rev_app_distr).
  rewrite ?E, ?(lstrip_id c) by exact C. rewrite ?E, lstrip_id by exact D.
  rewrite <- E, rev_involutive, ?(lstrip_id c) by exact C. reflexivity.
Qed.

Lemma join_last : forall c hs w, exists s, join c (hs ++ [w]) = s ++ w.
Proof.
  intros c hs w. induction hs as [|h hs [s IH]]; [exists []; reflexivity|].
  destruct hs as [|h' hs]; [exists (h ++ [c]); simpl; rewrite <- app_assoc; reflexivity|].
  exists (h ++ c :: s). change (join c ((h :: h' :: hs) ++ [w])) with (h ++ c :: join c ((h' :: hs) ++ [w])).
  rewrite IH, <- app_assoc. reflexivity.
Qed.

Lemma header_line : forall V headers (f : list (line V)), printable headers ->
  get_headers (LText (hash :: join tab headers) :: f) = Ok headers.
Proof.
  intros V headers f [F (hs & w & c & E & C)]. cbn [get_headers].
  destruct (join_last tab hs (w ++ [c])) as [s J0].
  assert (J : join tab headers = s ++ w ++ [c]) by (rewrite E; exact J0).
  assert (S0 : strip (hash :: join tab headers) = hash :: join tab headers).
  { rewrite J, app_assoc. apply strip_id; auto. }
  rewrite S0, Ascii.eqb_refl.
  assert (NE : headers <> []) by (rewrite E; destruct hs; discriminate).
  destruct (join tab headers) as [|x l] eqn:JE.
  - destruct s; destruct w; discriminate.
  - rewrite <- JE, split_join; auto. eapply Forall_impl; [|exact F]. intros a [Ha _]. exact Ha.
Qed.

Lemma data_rows_app : forall V (a b : list (line V)), data_rows (a ++ b) = data_rows a ++ data_rows b.
Proof. intros. unfold data_rows. apply flat_map_app. Qed.
Lemma data_rows_data : forall V (rows : list (list V)), data_rows (map LData rows) = rows.
Proof. induction rows as [|r rows IH]; simpl; congruence. Qed.

Lemma written_eq : forall V (d : V) headers b bs, join tab headers <> [] ->
  written d headers b bs = LText (hash :: join tab headers) ::
    map LData (concat (map (fun b' => transpose d (fst b') (snd b')) (b :: bs))).
Proof.
  intros V d headers b bs NE. unfold written.
  assert (W0 : write_csv d [] (fst b) (snd b) headers false =
     LText (hash :: join tab headers) :: map LData (transpose d (fst b) (snd b))).
  { unfold write_csv. destruct (join tab headers); [congruence|reflexivity]. }
  rewrite W0. simpl map. simpl concat.
  generalize (transpose d (fst b) (snd b)) as rows. clear W0 b.
  induction bs as [|b bs IH]; intros rows; simpl.
  - rewrite app_nil_r. reflexivity.
  - unfold write_csv at 2. simpl app. rewrite <- map_app, IH, <- app_assoc. reflexivity.
Qed.

Lemma nth_transpose : forall V (d : V) n (data : list (list V)) k, Forall (fun v => length v = n) data -> k < length data ->
  map (fun r => nth k r d) (transpose d n data) = nth k data [].
Proof.
  intros V d n data k F L. unfold transpose. rewrite map_map.
  assert (LV : length (nth k data []) = n) by (rewrite Forall_forall in F; apply F; apply nth_In; exact L).
  apply nth_ext with (d := d) (d' := d).
  - rewrite map_length, seq_length. auto.
  - rewrite map_length, seq_length. intros s Hs.
    rewrite nth_indep with (d' := (fun s => nth k (map (fun var : list V => nth s var d) data) d) 0) by (rewrite map_length, seq_length; exact Hs).
    rewrite (map_nth (fun s => nth k (map (fun var : list V => nth s var d) data) d)), seq_nth by exact Hs. simpl.
    rewrite nth_indep with (d' := (fun var : list V => nth s var d) []) by (rewrite map_length; exact L).
    rewrite (map_nth (fun var : list V => nth s var d)). reflexivity.
Qed.

Lemma column_all : forall V (d : V) headers bs k, Forall (block headers) bs -> k < length headers ->
  map (fun r => nth k r d) (concat (map (fun b => transpose d (fst b) (snd b)) bs)) = samples bs k.
Proof.
  intros V d headers bs k F L. induction F as [|b bs [B1 B2] F IH]; [reflexivity|].
  unfold samples in *. simpl. rewrite map_app, IH, nth_transpose; auto. lia.
Qed.

Lemma row_width : forall V (d : V) headers bs r, Forall (block headers) bs ->
  In r (concat (map (fun b => transpose d (fst b) (snd b)) bs)) -> length r = length headers.
Proof.
  intros V d headers bs r F H. apply in_concat in H. destruct H as (rows & H1 & H2).
  apply in_map_iff in H1. destruct H1 as (b & <- & H1). rewrite Forall_forall in F. destruct (F b H1) as [B1 _].
  unfold transpose in H2. apply in_map_iff in H2. destruct H2 as (s & <- & _). rewrite map_length. exact B1.
Qed.

Lemma rows_count : forall V (d : V) bs, length (concat (map (fun b => transpose d (fst b) (snd b)) bs)) = total bs.
Proof.
  intros V d bs. induction bs as [|b bs IH]; [reflexivity|]. simpl. rewrite app_length, IH.
  unfold transpose. rewrite map_length, seq_length. reflexivity.
Qed.

Lemma find_header_some : forall headers s k k0, NoDup (map slower headers) -> selects headers s k ->
  find_header headers s k0 = Some (k0 + k).
Proof.
  induction headers as [|h headers IH]; intros s k k0 ND (x & N & E); [destruct k; discriminate|].
  simpl. inversion ND as [|? ? NI ND']; subst. destruct k as [|k].
  - injection N as ->. destruct (streqb_spec (slower x) (slower s)); [|contradiction]. f_equal. lia.
  - destruct (streqb_spec (slower h) (slower s)) as [H|H].
    + exfalso. apply NI. rewrite H, <- E. apply in_map. eapply nth_error_In. exact N.
    + rewrite (IH s k (S k0)); [f_equal; lia|assumption|]. exists x. split; assumption.
Qed.
Lemma find_header_range : forall headers s k0 k, find_header headers s k0 = Some k ->
  k0 <= k < k0 + length headers /\ exists h, nth_error headers (k - k0) = Some h /\ slower h = slower s.
Proof.
  induction headers as [|h headers IH]; intros s k0 k H; [discriminate|]. simpl in H.
  destruct (streqb_spec (slower h) (slower s)) as [E|E].
  - injection H as <-. simpl. split; [lia|]. rewrite Nat.sub_diag. exists h. auto.
  - apply IH in H. destruct H as [R (x & N & X)]. simpl. split; [lia|]. exists x.
    replace (k - k0) with (S (k - S k0)) by lia. auto.
Qed.

Lemma index_selects : forall headers sel ks, NoDup (map slower headers) -> sel <> [] ->
  Forall2 (selects headers) sel ks -> headers_index headers sel = ks.
Proof.
  intros headers sel ks ND NE F. unfold headers_index. destruct sel as [|s0 sel0]; [congruence|].
  clear NE. induction F as [|s k sel ks S0 F IH]; [reflexivity|]. simpl.
  rewrite (find_header_some headers s k 0 ND S0). simpl. f_equal. exact IH.
Qed.

Lemma selects_lt : forall headers s k, selects headers s k -> k < length headers.
Proof. intros headers s k (h & N & _). apply nth_error_Some. congruence. Qed.

(** ** Reading in general *)
Section Read.
  Context {V : Type}.
  Variables (d : V) (headers : list str) (b : nat * list (list V)) (bs : list (nat * list (list V))).
  Hypothesis P : printable headers.
  Hypothesis B : Forall (block headers) (b :: bs).
  Let file := written d headers b bs.
  Let rows := concat (map (fun b => transpose d (fst b) (snd b)) (b :: bs)).

  Lemma join_ne : join tab headers <> [].
  Proof.
    destruct P as [_ (hs & w & c & E & _)]. destruct (join_last tab hs (w ++ [c])) as [s J0].
  assert (J : join tab headers = s ++ w ++ [c]) by (rewrite E; exact J0).
    rewrite J. destruct s; destruct w; discriminate.
  Qed.
  Lemma file_eq : file = LText (hash :: join tab headers) :: map LData rows.
  Proof. apply written_eq. apply join_ne. Qed.

  Lemma skip_rows : forall skip, data_rows (skipn skip file) = skipn (skip - 1) rows.
  Proof.
    intros skip. rewrite file_eq. destruct skip as [|k].
    - cbn [skipn Nat.sub]. change (data_rows (LText (hash :: join tab headers) :: map LData rows)) with (data_rows (map LData rows)).
      apply data_rows_data.
    - cbn [skipn]. rewrite skipn_map, data_rows_data. f_equal. lia.
  Qed.

  Lemma loadtxt_ok : forall ks skip, Forall (fun k => k < length headers) ks ->
    loadtxt d file ks skip = Ok (map (fun k => skipn (skip - 1) (samples (b :: bs) k)) ks).
  Proof.
    intros ks skip F. unfold loadtxt. rewrite skip_rows.
    assert (FB : forallb (fun r => forallb (fun k => k <? length r) ks) (skipn (skip - 1) rows) = true).
    { apply forallb_forall. intros r Hr. apply forallb_forall. intros k Hk. apply Nat.ltb_lt.
      rewrite (row_width V d headers (b :: bs) r B).
      - rewrite Forall_forall in F. apply F. exact Hk.
      - fold rows. rewrite <- (firstn_skipn (skip - 1) rows). apply in_app_iff. right. exact Hr. }
    rewrite FB. f_equal. apply map_ext_in. intros k Hk. rewrite <- skipn_map. f_equal.
    apply (column_all V d headers); auto. rewrite Forall_forall in F. apply F. exact Hk.
  Qed.

  Lemma load_ok : forall sel ks nsamples skip,
    headers_index headers sel = ks -> (sel = [] \/ length ks = length sel) -> Forall (fun k => k < length headers) ks ->
    let avail := total (b :: bs) - (skip - 1) in
    load_csv d file sel nsamples skip =
    Ok (map (fun k => match nsamples with None => skipn (skip - 1) (samples (b :: bs) k)
                      | Some n => firstn (Nat.min n avail) (skipn (skip - 1) (samples (b :: bs) k)) end) ks,
        map (fun k => nth k headers []) ks,
        skip + match nsamples with None => avail | Some n => Nat.min n avail end,
        match nsamples with None => true | Some n => n =? avail end).
  Proof.
    intros sel ks nsamples skip HI LS F avail. unfold load_csv.
    assert (GH : get_headers file = Ok headers) by (rewrite file_eq; apply header_line; exact P).
    rewrite GH. cbn [bindr]. rewrite HI.
    assert (C : (0 <? length sel) && negb (length ks =? length sel) = false).
    { destruct LS as [->|E]; [reflexivity|]. rewrite E, Nat.eqb_refl. simpl. apply andb_false_r. }
    rewrite C, loadtxt_ok by exact F. cbn [bindr]. rewrite skip_rows, skipn_length.
    assert (RC : length rows = total (b :: bs)) by (apply rows_count).
    rewrite RC. fold avail. destruct nsamples as [n|]; [|reflexivity]. rewrite map_map. reflexivity.
  Qed.
End Read.

(** * C37 *)
Theorem C37_round_trip : forall V (d : V) headers b bs,
  printable headers -> NoDup (map slower headers) -> Forall (block headers) (b :: bs) ->
  (forall sel ks, sel <> [] -> Forall2 (selects headers) sel ks ->
     load_csv d (written d headers b bs) sel None 0 =
     Ok (map (samples (b :: bs)) ks, map (fun k => nth k headers []) ks, total (b :: bs), true)) /\
  load_csv d (written d headers b bs) [] None 0 =
     Ok (map (samples (b :: bs)) (seq 0 (length headers)), headers, total (b :: bs), true).
Proof.
  intros V d headers b bs P ND B. split.
  - intros sel ks NE F.
    assert (FK : Forall (fun k => k < length headers) ks).
    { clear NE. induction F; constructor; auto. eapply selects_lt; eauto. }
    rewrite (load_ok d headers b bs P B sel ks None 0); auto.
    + simpl skipn. rewrite Nat.sub_0_r. reflexivity.
    + apply index_selects; auto.
    + right. clear - F. induction F; simpl; congruence.
  - rewrite (load_ok d headers b bs P B [] (seq 0 (length headers)) None 0); auto.
    + simpl skipn. rewrite Nat.sub_0_r. repeat f_equal. simpl.
      apply nth_ext with (d := []) (d' := []); [rewrite map_length, seq_length; reflexivity|].
      rewrite map_length, seq_length. intros k L.
      rewrite nth_indep with (d' := nth 0 headers []) by (rewrite map_length, seq_length; exact L).
      rewrite (map_nth (fun k => nth k headers [])), seq_nth by exact L. reflexivity.
    + apply Forall_forall. intros k H. apply in_seq in H. lia.
Qed.
Print Assumptions C37_round_trip.

(** What the file contained before the first block is gone. *)
Theorem C37_old_contents : forall V (d : V) old headers b bs sel nsamples skip,
  load_csv d (fold_left (fun f b' => write_csv d f (fst b') (snd b') headers true) bs (write_csv d old (fst b) (snd b) headers false)) sel nsamples skip
  = load_csv d (written d headers b bs) sel nsamples skip.
Proof. reflexivity. Qed.
Print Assumptions C37_old_contents.

Theorem C37_missing_header : forall V (d : V) headers b bs sel s nsamples skip,
  printable headers -> Forall (block headers) (b :: bs) -> In s sel ->
  (forall h, In h headers -> slower h <> slower s) ->
  load_csv d (written d headers b bs) sel nsamples skip = Err ValueError.
Proof.
  intros V d headers b bs sel s nsamples skip P B I NH. unfold load_csv.
  assert (GH : get_headers (written d headers b bs) = Ok headers) by (rewrite (file_eq d headers b bs P); apply header_line; exact P).
  rewrite GH. cbn [bindr].
  assert (L : length (headers_index headers sel) < length sel).
  { destruct sel as [|s0 sel0]; [destruct I|]. unfold headers_index. remember (s0 :: sel0) as l. clear Heql s0 sel0 GH.
    assert (LE : forall l, length (flat_map (fun h => match find_header headers h 0 with Some k => [k] | None => [] end) l) <= length l).
    { clear. induction l as [|h l IH]; simpl; [lia|]. rewrite app_length. destruct (find_header headers h 0); simpl; lia. }
    induction l as [|h l IH]; [destruct I|]. simpl. rewrite app_length. destruct I as [->|I].
    - destruct (find_header headers s 0) as [k|] eqn:F.
      + exfalso. apply find_header_range in F. destruct F as [_ (h & N & E)]. apply (NH h); [eapply nth_error_In; eauto|exact E].
      + simpl. specialize (LE l). lia.
    - specialize (IH I). destruct (find_header headers h 0); simpl; lia. }
  assert (C : (0 <? length sel) && negb (length (headers_index headers sel) =? length sel) = true).
  { apply andb_true_intro. split; [apply Nat.ltb_lt; lia|]. apply negb_true_iff. apply Nat.eqb_neq. lia. }
  rewrite C. reflexivity.
Qed.
Print Assumptions C37_missing_header.

Definition ex_headers := [lit "T"; lit "VN1"; lit "I(V1)"].
Definition ex_blocks := [(2, [[0;1]; [10;11]; [20;21]]); (1, [[2]; [12]; [22]])].
Example C37_example : load_csv 0 (written 0 ex_headers (2, [[0;1]; [10;11]; [20;21]]) [(1, [[2]; [12]; [22]])])
  [lit "i(v1)"; lit "t"] None 0 = Ok ([[20;21;22]; [0;1;2]], [lit "I(V1)"; lit "T"], 3, true).
Proof. vm_compute. reflexivity. Qed.

(** * C38 *)

(** [skip] counts lines of the file: with [skip = k >= 1] the first sample read is
    number [k - 1], so a reader that goes on at the position it got reads the
    sample before again. *)
Theorem C38_skip_actual : forall V (d : V) headers b bs n k,
  printable headers -> NoDup (map slower headers) -> Forall (block headers) (b :: bs) ->
  load_csv d (written d headers b bs) headers (Some n) (S k) =
  Ok (map (fun i => firstn (Nat.min n (total (b :: bs) - k)) (skipn k (samples (b :: bs) i))) (seq 0 (length headers)),
      headers, S k + Nat.min n (total (b :: bs) - k), n =? total (b :: bs) - k).
Proof.
  intros V d headers b bs n k P ND B.
  assert (F2 : Forall2 (selects headers) headers (seq 0 (length headers))).
  { assert (G : forall pre l, Forall2 (selects (pre ++ l)) l (seq (length pre) (length l))).
    { intros pre l. revert pre. induction l as [|h l IH]; intros pre; simpl; constructor.
      - exists h. split; [|reflexivity]. rewrite nth_error_app2 by lia. rewrite Nat.sub_diag. reflexivity.
      - specialize (IH (pre ++ [h])). rewrite <- app_assoc, app_length in IH. simpl in IH.
        replace (length pre + 1) with (S (length pre)) in IH by lia. exact IH. }
    apply (G [] headers). }
  assert (NE : headers <> []) by (destruct P as [_ (hs & w & c & -> & _)]; destruct hs; discriminate).
  rewrite (load_ok d headers b bs P B headers (seq 0 (length headers)) (Some n) (S k)).
  - replace (S k - 1) with k by lia. f_equal. f_equal. f_equal. f_equal.
    apply nth_ext with (d := []) (d' := []); [rewrite map_length, seq_length; reflexivity|].
    rewrite map_length, seq_length. intros j L.
    rewrite nth_indep with (d' := nth 0 headers []) by (rewrite map_length, seq_length; exact L).
    rewrite (map_nth (fun k => nth k headers [])), seq_nth by exact L. reflexivity.
  - apply index_selects; auto.
  - right. rewrite seq_length. reflexivity.
  - apply Forall_forall. intros j H. apply in_seq in H. lia.
Qed.
Print Assumptions C38_skip_actual.

(** Reading two samples, then on from the position returned: sample 1 comes
    twice. *)
Theorem C38_chunks_refuted : exists headers (b : nat * list (list nat)) d1 h1 p1 e1 d2 h2 p2 e2,
  load_csv 9 (written 9 headers b []) [] (Some 2) 0 = Ok (d1, h1, p1, e1) /\
  load_csv 9 (written 9 headers b []) [] (Some 2) p1 = Ok (d2, h2, p2, e2) /\
  d1 = [[0; 1]] /\ d2 = [[1; 2]].
Proof.
  exists [lit "T"], (4, [[0; 1; 2; 3]]). do 8 eexists. split; [vm_compute; reflexivity|].
  split; [vm_compute; reflexivity|]. split; reflexivity.
Qed.
Print Assumptions C38_chunks_refuted.

(** * C83: the end-of-file flag *)

(** Asking for more samples than there are reads all of them, and the flag says
    that there are more. *)
Theorem C83_eof_refuted : forall V (d : V) headers b bs n,
  printable headers -> Forall (block headers) (b :: bs) -> total (b :: bs) < n ->
  exists data hs pos, load_csv d (written d headers b bs) [] (Some n) 0 = Ok (data, hs, pos, false) /\
  pos = total (b :: bs).
Proof.
  intros V d headers b bs n P B L.
  rewrite (load_ok d headers b bs P B [] (seq 0 (length headers)) (Some n) 0); auto.
  - do 3 eexists. split; [f_equal; f_equal|].
    + apply Nat.eqb_neq. simpl. simpl in L. lia.
    + simpl in *. lia.
  - apply Forall_forall. intros k H. apply in_seq in H. lia.
Qed.
Print Assumptions C83_eof_refuted.
