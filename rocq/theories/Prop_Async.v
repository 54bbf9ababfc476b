(** Properties of the asynchronous reader (C45-C49).  [poll_next] and [item_next] are the models of the polls of [AsyncFits] and of its
    data streams, [content s] are the bytes a source [s] has still to give, [Wait] is a poll of the source that is not ready. *)

From Coq Require Import String List.
From Verif Require Import Base Utf8 Text Card Reader Header Xtension Fits Bytes Async.
From Verif Require Import SpecUtf8 SpecCard SpecHeader SpecXt SpecFits SpecImage SpecAsync.
From Verif Require Import HeaderProofs FitsProofs4 AsyncProofs AsyncProofs2 AsyncProofs3 AsyncProofs4 AsyncProofs5.
From Verif Require Import Prop_Fits.
Local Open Scope string_scope.
Local Open Scope list_scope.
Local Open Scope Z_scope.

(** A source that gives these bytes in pieces of [n]; fuel [k]. *)
Fixpoint pieces (k n : nat) (d : list Z) : list event :=
  match k, d with
  | S k', _ :: _ => Chunk (firstn n d) :: pieces k' n (skipn n d)
  | _, _ => []
  end.
Definition ex_source_of (n : nat) (d : list Z) : areader := mk_areader [] (pieces (List.length d) n d).
Definition ex_bytes : list Z := Eval vm_compute in file_bytes ex_file.
Definition asummary (i : aitem) : option (hkind * res Z) :=
  match i with AOk h => Some (a_kind h, xt_num_bytes Checked (a_xt h)) | _ => None end.

(** ** C49: skipping bytes *)

Theorem C49_skips : forall s n, always_ready s -> 0 <= n <= len (content s) ->
  exists s', poll_skip s n = (Ready (Ok tt), s') /\ always_ready s' /\
    content s' = skipn (Z.to_nat n) (content s).
Proof. exact skip_enough. Qed.
Print Assumptions C49_skips.

Theorem C49_short : forall s n, always_ready s -> len (content s) < n ->
  exists s', poll_skip s n = (Ready (Err EStatic), s') /\ content s' = [].
Proof. exact skip_short. Qed.
Print Assumptions C49_short.

Example C49_ex :
  let s := mk_areader [1; 2] [Chunk [3]; Chunk [4; 5; 6]] in
  poll_skip s 4 = (Ready (Ok tt), mk_areader [5; 6] []) /\ poll_skip s 6 = (Ready (Ok tt), mk_areader [] []) /\
  fst (poll_skip s 7) = Ready (Err EStatic).
Proof. repeat split; vm_compute; reflexivity. Qed.

(** ** C45: chunking does not matter *)

(** Two streams in the same state over the same bytes, however cut: every series of polls, of HDUs and of data items, gives
    the same results. *)
Theorem C45_chunking : forall m f g ops,
  always_ready (af_reader f) -> always_ready (af_reader g) -> 0 <= af_rem f -> same_bytes f g ->
  fst (arun m f ops) = fst (arun m g ops) /\ same_bytes (snd (arun m f ops)) (snd (arun m g ops)).
Proof. exact chunking. Qed.
Print Assumptions C45_chunking.

(** Pieces of 1000 and of 37 bytes. *)
Example C45_ex :
  always_ready (ex_source_of 1000 ex_bytes) /\ content (ex_source_of 1000 ex_bytes) = ex_bytes /\
  let ops := [ONext; OItem BU8; OItem BU8; ONext; OItem BI16; ONext; ONext] in
  fst (arun Checked (afrom_reader (ex_source_of 1000 ex_bytes)) ops) =
  fst (arun Checked (afrom_reader (ex_source_of 37 ex_bytes)) ops) /\
  map (fun x => match x with RNext i => asummary i | RItem (SItem v) => Some (HImage, Ok v) | _ => None end)
    (fst (arun Checked (afrom_reader (ex_source_of 1000 ex_bytes)) ops)) =
  [Some (HPrimary, Ok 5); Some (HImage, Ok 1); Some (HImage, Ok 2); Some (HImage, Ok 12); Some (HImage, Ok 1);
   Some (HAsciiTable, Ok 3); None].
Proof.
  split; [|split; [vm_compute; reflexivity|split; vm_compute; reflexivity]].
  unfold always_ready. apply Forall_forall. intros e He.
  assert (F: forallb (fun e => match e with Chunk (_ :: _) => true | _ => false end)
    (ar_events (ex_source_of 1000 ex_bytes)) = true) by (vm_compute; reflexivity).
  rewrite forallb_forall in F. specialize (F e He). destruct e as [|[|x c]]; try discriminate.
  exists (x :: c). split; [reflexivity|discriminate].
Qed.

(** ** C46: the HDUs the synchronous iterator gives *)

(** Well-formed files, with any number of data items read in between. *)
Theorem C46_well_formed : forall m s hs,
  octets (content s) -> always_ready s -> file_kinds hs -> Forall (accepted m) hs ->
  content s = file_bytes hs -> len (content s) < 2 ^ 63 ->
  exists full,
    (exists f', yields m (opened (content s)) (full ++ [INone]) f') /\ List.length full = List.length hs /\
    (exists g', ayields m (afrom_reader s) (map as_async (full ++ [INone])) g') /\
    (forall l g2, ayields m (afrom_reader s) l g2 -> (List.length l <= List.length hs + 1)%nat ->
       l = firstn (List.length l) (map as_async (full ++ [INone]))).
Proof. exact async_file. Qed.
Print Assumptions C46_well_formed.

(** [C20_ex_file] is a file meeting the hypotheses. *)
Example C46_ex :
  map asummary (fst (polls Checked 4 (afrom_reader (ex_source_of 1000 (file_bytes ex_file))))) =
  [Some (HPrimary, Ok 5); Some (HImage, Ok 12); Some (HAsciiTable, Ok 3); None].
Proof. vm_compute. reflexivity. Qed.

(** Arbitrary bytes: as long as the synchronous iterator gives HDUs whose data units are complete, the same HDUs. *)
Theorem C46_any_bytes : forall m s hs f',
  octets (content s) -> len (content s) < 2 ^ 62 -> always_ready s ->
  run m (List.length hs) (opened (content s)) = (map IOk hs, f') -> complete m (len (content s)) hs ->
  fst (polls m (List.length hs) (afrom_reader s)) = map (fun h => AOk (without_offset h)) hs.
Proof. exact same_headers. Qed.
Print Assumptions C46_any_bytes.

(** The call after them: see [ends_alike]. *)
Theorem C46_any_end : forall m s hs h i f',
  octets (content s) -> len (content s) < 2 ^ 62 -> always_ready s ->
  run m (List.length hs + 2) (opened (content s)) = (map IOk (hs ++ [h]) ++ [i], f') ->
  complete m (len (content s)) (hs ++ [h]) ->
  exists j, fst (polls m (List.length hs + 2) (afrom_reader s)) =
    map (fun h => AOk (without_offset h)) (hs ++ [h]) ++ [j] /\ ends_alike m (len (content s)) h i j.
Proof. exact same_end. Qed.
Print Assumptions C46_any_end.

(** A primary header that cannot be read. *)
Theorem C46_first_error : forall m s e f', octets (content s) -> always_ready s ->
  next m (opened (content s)) = (IErr e, f') -> e <> EDynamic ->
  exists e', fst (poll_next m (afrom_reader s)) = AErr e'.
Proof. exact same_first. Qed.
Print Assumptions C46_first_error.

Example C46_any_ex :
  let s := mk_areader ex_bytes [] in
  let hs := flat_map (fun i => match i with IOk h => [h] | _ => [] end) (fst (run Checked 3 (opened ex_bytes))) in
  len ex_bytes < 2 ^ 62 /\ map IOk hs = fst (run Checked 3 (opened ex_bytes)) /\ List.length hs = 3%nat /\
  forallb (fun h => match hdu_size Checked h with Ok n => h_offset h + n <=? len ex_bytes | _ => false end) hs = true /\
  fst (next Checked (snd (run Checked 3 (opened ex_bytes)))) = INone.
Proof.
  cbv zeta. split; [vm_compute; reflexivity|]. split; [vm_compute; reflexivity|]. split; [vm_compute; reflexivity|].
  split; vm_compute; reflexivity.
Qed.

(** Where they differ.  The first keyword of a file is not looked at. *)
Definition ex_foo : list Z := Eval vm_compute in
  header_bytes (ex_source ["FOO     = T"; "BITPIX  = 8"; "NAXIS   = 0"] []).
Theorem C46_first_keyword_refuted : exists s h,
  octets (content s) /\ always_ready s /\
  fst (next Checked (opened (content s))) = IErr EDynamic /\
  fst (poll_next Checked (afrom_reader s)) = AOk h.
Proof.
  assert (X: exists h, fst (poll_next Checked (afrom_reader (mk_areader ex_foo []))) = AOk h)
    by (eexists; vm_compute; reflexivity).
  destruct X as (h & X). exists (mk_areader ex_foo []), h.
  split; [apply octetsb_ok; vm_compute; reflexivity|]. split; [constructor|]. split; [vm_compute; reflexivity|exact X].
Qed.
Print Assumptions C46_first_keyword_refuted.

(** A file cut in its last data unit: the end for one, an error for the other. *)
Definition ex_cut : list Z := Eval vm_compute in firstn 2883 ex_bytes.
Theorem C46_truncated_refuted : exists s h h',
  octets (content s) /\ always_ready s /\
  fst (run Checked 2 (opened (content s))) = [IOk h; INone] /\
  fst (polls Checked 2 (afrom_reader s)) = [AOk h'; AErr EStatic].
Proof.
  assert (X: exists h, fst (run Checked 2 (opened ex_cut)) = [IOk h; INone]) by (eexists; vm_compute; reflexivity).
  assert (Y: exists h, fst (polls Checked 2 (afrom_reader (mk_areader ex_cut []))) = [AOk h; AErr EStatic])
    by (eexists; vm_compute; reflexivity).
  destruct X as (h & X). destruct Y as (h' & Y). exists (mk_areader ex_cut []), h, h'.
  split; [apply octetsb_ok; vm_compute; reflexivity|]. split; [constructor|]. split; [exact X|exact Y].
Qed.
Print Assumptions C46_truncated_refuted.

(** Polling again after the end gives an error when the last data unit was not read: the stream is not fused. *)
Theorem C46_end_final_refuted : exists s hs,
  octets (content s) /\ always_ready s /\
  (exists k, file_kinds k /\ Forall (accepted Checked) k /\ content s = file_bytes k) /\
  fst (polls Checked 5 (afrom_reader s)) = map AOk hs ++ [ANone; AErr EStatic].
Proof.
  assert (Y: exists a b c, fst (polls Checked 5 (afrom_reader (mk_areader (file_bytes ex_file) []))) =
                   [AOk a; AOk b; AOk c; ANone; AErr EStatic]) by (eexists; eexists; eexists; vm_compute; reflexivity).
  destruct Y as (a & b & c & Y). exists (mk_areader (file_bytes ex_file) []), [a; b; c].
  destruct C20_ex_file as (H1 & H2 & H3 & _).
  assert (C: content (mk_areader (file_bytes ex_file) []) = file_bytes ex_file) by apply app_nil_r.
  rewrite C. split; [exact H1|]. split; [constructor|]. split; [exists ex_file; auto|exact Y].
Qed.
Print Assumptions C46_end_final_refuted.

(** ** C47: polls that are not ready *)

(** Every operation is polled until it is ready: if no poll that was not ready took a byte, the results are those of an
    always ready source. *)
Theorem C47_quiet_waits_partial : forall m f g ops l f2,
  Forall (fun e => e <> Chunk []) (ar_events (af_reader f)) -> always_ready (af_reader g) -> 0 <= af_rem f ->
  same_bytes f g -> completes m f ops l f2 ->
  fst (arun m g ops) = l /\ same_bytes f2 (snd (arun m g ops)).
Proof. exact quiet_waits. Qed.
Print Assumptions C47_quiet_waits_partial.

(** Items of one byte never lose anything. *)
Theorem C47_byte_items : forall m f f',
  item_next m BU8 f = (SPending, f') -> exists s, f' = af_set_reader f s /\ content s = content (af_reader f).
Proof. exact byte_items_wait. Qed.
Print Assumptions C47_byte_items.

Example C47_ex :
  let evs := [Wait; Chunk (firstn 2880 ex_bytes); Wait; Chunk (slice ex_bytes 2880 2); Wait; Wait;
              Chunk (skipn 2882 ex_bytes)] in
  let f := afrom_reader (mk_areader [] evs) in
  fst (arun Checked f [ONext]) = [RNext APending] /\
  map pending (fst (arun Checked f [ONext; ONext; OItem BU8; OItem BU8; OItem BU8; OItem BU8; OItem BU8; OItem BU8; ONext])) =
    [true; false; true; false; false; true; true; false; false].
Proof. split; vm_compute; reflexivity. Qed.

(** In general bytes are lost.  A header in two parts: the first part is taken and forgotten, and the second poll reads the
    rest as if it were the beginning. *)
Theorem C47_header_refuted : exists s s0,
  content s = content s0 /\ always_ready s0 /\
  (exists h, fst (arun Checked (afrom_reader s0) [ONext]) = [RNext (AOk h)]) /\
  fst (arun Checked (afrom_reader s) [ONext; ONext]) = [RNext APending; RNext (AErr EStatic)].
Proof.
  exists (mk_areader [] [Chunk (firstn 2000 ex_cut); Wait; Chunk (skipn 2000 ex_cut)]), (mk_areader ex_cut []).
  split; [vm_compute; reflexivity|]. split; [constructor|]. split; [eexists; vm_compute; reflexivity|vm_compute; reflexivity].
Qed.
Print Assumptions C47_header_refuted.

(** A pixel in two parts: the values after it are shifted by one byte. *)
Theorem C47_items_refuted : exists f g,
  same_bytes f g /\ always_ready (af_reader g) /\ af_rem g = 4 /\
  fst (arun Checked g [OItem BI16; OItem BI16]) = [RItem (SItem 258); RItem (SItem 772)] /\
  fst (arun Checked f [OItem BI16; OItem BI16; OItem BI16]) = [RItem SPending; RItem (SItem 515); RItem (SItem 1029)].
Proof.
  exists (mk_afits false 4 4 false (mk_areader [] [Chunk [1]; Wait; Chunk [2; 3; 4; 5]])),
         (mk_afits false 4 4 false (mk_areader [1; 2; 3; 4; 5] [])).
  split; [repeat split|]. split; [constructor|]. split; [reflexivity|]. split; vm_compute; reflexivity.
Qed.
Print Assumptions C47_items_refuted.

(** Skipping a data unit that comes in two parts: the first part is skipped twice, and the next header is missed. *)
Definition ex_skip (evs : list event) : afits := mk_afits false 2880 2880 false (mk_areader [] evs).
Definition ex_ext : list Z := Eval vm_compute in skipn 5760 ex_bytes.
Theorem C47_skip_refuted : exists f g,
  same_bytes f g /\ always_ready (af_reader g) /\
  (exists h, fst (poll_next Checked g) = AOk h) /\
  fst (arun Checked f [ONext; ONext]) = [RNext APending; RNext (AErr EStatic)].
Proof.
  exists (ex_skip [Chunk (repeat 0 1000); Wait; Chunk (repeat 0 1880 ++ ex_ext)]), (ex_skip [Chunk (repeat 0 2880 ++ ex_ext)]).
  split; [split; [reflexivity|split; [reflexivity|split; [reflexivity|split; [reflexivity|vm_compute; reflexivity]]]]|].
  split; [constructor; [|constructor]; eexists; split; [reflexivity|discriminate]|].
  split; [eexists; vm_compute; reflexivity|vm_compute; reflexivity].
Qed.
Print Assumptions C47_skip_refuted.

(** ** C48: data items *)

(** [k] polls give the first [k] values, then the end; the count follows. *)
Theorem C48_items : forall m b values k f rest,
  always_ready (af_reader f) -> Forall (in_range b) values ->
  content (af_reader f) = List.concat (map (encode b) values) ++ rest ->
  af_rem f = width b * len values -> af_rem f < 2 ^ 64 ->
  exists s', arun m f (repeat (OItem b) k) =
      (map (fun v => RItem (SItem v)) (firstn k values) ++ repeat (RItem SEnd) (k - List.length values),
       mk_afits (af_start f) (width b * len (skipn k values)) (af_num f) (af_error f) s') /\
    always_ready s' /\ content s' = List.concat (map (encode b) (skipn k values)) ++ rest.
Proof. exact items_run. Qed.
Print Assumptions C48_items.

(** However many items were read, the next HDU is the same. *)
Theorem C48_next : forall m b values rest f k,
  always_ready (af_reader f) -> Forall (in_range b) values ->
  content (af_reader f) = List.concat (map (encode b) values) ++ rest ->
  af_rem f = width b * len values -> af_num f = af_rem f -> af_rem f < 2 ^ 64 ->
  af_start f = false -> af_error f = false ->
  let f' := snd (arun m f (repeat (OItem b) k)) in
  fst (poll_next m f') = fst (poll_next m f) /\
  forall h, fst (poll_next m f') = AOk h -> same_bytes (snd (poll_next m f')) (snd (poll_next m f)).
Proof. exact next_after_items. Qed.
Print Assumptions C48_next.

Example C48_ex :
  let f := mk_afits false 6 6 false (mk_areader [255] [Chunk [254; 0]; Chunk [1; 128; 0; 9; 9]]) in
  content (af_reader f) = List.concat (map (encode BI16) [-2; 1; -32768]) ++ [9; 9] /\
  fst (arun Checked f (repeat (OItem BI16) 5)) =
    [RItem (SItem (-2)); RItem (SItem 1); RItem (SItem (-32768)); RItem SEnd; RItem SEnd].
Proof. split; vm_compute; reflexivity. Qed.

(** A data unit that is cut short: errors without end, never [None]. *)
Theorem C48_truncated_refuted : forall m b k f,
  always_ready (af_reader f) -> len (content (af_reader f)) < width b -> af_rem f <> 0 ->
  fst (arun m f (repeat (OItem b) k)) = repeat (RItem (SErr EEof)) k.
Proof. intros m b. exact (items_truncated m b). Qed.
Print Assumptions C48_truncated_refuted.

Example C48_truncated_ex :
  fst (arun Checked (mk_afits false 4 4 false (mk_areader [0; 1; 2] [])) (repeat (OItem BI16) 4)) =
    [RItem (SItem 1); RItem (SErr EEof); RItem (SErr EEof); RItem (SErr EEof)].
Proof. vm_compute. reflexivity. Qed.
