(** Properties of whole headers (C07, C12-C16).  [consume_cards] is the model of the record loop,
    [process_cards] of the keyword-table construction, [get], [keywords], [get_parsed] of the
    accessors; [SpecHeader] holds the specification side. *)

From Verif Require Import Base Utf8 Text Card Reader Header SpecUtf8 SpecCard SpecHeader.
From Verif Require Import TextLemmas CardProofs2 HeaderProofs HeaderProofs2 HeaderProps.

(** A small header used in the examples: END, then trailing bytes that must not be read. *)
Definition ex_header : list Z :=
  padded 80 (chars "SIMPLE  = T") ++ padded 80 (chars "NAXIS   = 0 / none") ++
  padded 80 (chars "OBJECT  = 'a&' / one") ++ padded 80 (chars "CONTINUE  'b' / two") ++
  padded 80 (chars "WEIRD   = (1, 2)") ++ padded 80 (chars "NAXIS   = 1") ++
  padded 80 (chars "END") ++ padded 80 (chars "JUNK    = 3").

Definition ex_cards : list card :=
  [CValue (chars "SIMPLE") (VLogical true None);
   CValue (chars "NAXIS") (VInteger 0 (Some (chars " none")));
   CValue (chars "OBJECT") (VString (chars "a&") (Some (chars " one")));
   CContinuation (Some (chars "b")) (Some (chars " two"));
   CUndefined (padded 80 (chars "WEIRD   = (1, 2)"));
   CValue (chars "NAXIS") (VInteger 1 None)].

(** ** C12: records up to END *)

Theorem C12_reads_up_to_end : forall d p n recs last rest,
  octets d -> 0 <= p -> skipn (Z.to_nat p) d = concat recs ++ last ++ rest ->
  Forall header_record recs -> end_record last ->
  exists cards, Forall2 reads_as recs cards /\ Forall (fun c => c <> CEnd) cards /\
    consume_cards (mk_reader d p) n
    = (Ok (cards ++ [CEnd]), n + 80 * (len recs + 1), mk_reader d (p + 80 * (len recs + 1))).
Proof. exact consume_cards_ok. Qed.
Print Assumptions C12_reads_up_to_end.

Theorem C12_missing_end : forall d p n recs tail,
  octets d -> 0 <= p -> skipn (Z.to_nat p) d = concat recs ++ tail ->
  Forall header_record recs -> (length tail < 80)%nat ->
  consume_cards (mk_reader d p) n = (Err EEof, n + 80 * len recs, mk_reader d (len d)).
Proof. exact consume_cards_eof. Qed.
Print Assumptions C12_missing_end.

(** The remaining streams are those where a panicking record (C10) comes before END. *)
Theorem C12_panic : forall d p n recs bad rest,
  octets d -> 0 <= p -> skipn (Z.to_nat p) d = concat recs ++ bad ++ rest ->
  Forall header_record recs -> length bad = 80%nat -> lone_quote_record bad ->
  consume_cards (mk_reader d p) n
  = (Panic, n + 80 * (len recs + 1), mk_reader d (p + 80 * (len recs + 1))).
Proof. exact consume_cards_panic. Qed.
Print Assumptions C12_panic.

Theorem C12_every_stream : forall s,
  octets s ->
  exists recs tail, s = concat recs ++ tail /\ Forall header_record recs /\
    ((length tail < 80)%nat \/
     exists r rest, tail = r ++ rest /\ (end_record r \/ length r = 80%nat /\ lone_quote_record r)).
Proof. exact stream_cases. Qed.
Print Assumptions C12_every_stream.

Theorem C12_only_then : forall d p n cards n' r',
  octets d -> 0 <= p -> consume_cards (mk_reader d p) n = (Ok cards, n', r') ->
  exists recs last rest cs,
    skipn (Z.to_nat p) d = concat recs ++ last ++ rest /\ Forall header_record recs /\
    end_record last /\ Forall2 reads_as recs cs /\ Forall (fun c => c <> CEnd) cs /\
    cards = cs ++ [CEnd] /\ n' = n + 80 * (len recs + 1) /\
    r' = mk_reader d (p + 80 * (len recs + 1)).
Proof. exact consume_cards_inv. Qed.
Print Assumptions C12_only_then.

Example C12_ex :
  consume_cards (mk_reader ex_header 0) 0 = (Ok (ex_cards ++ [CEnd]), 560, mk_reader ex_header 560) /\
  consume_cards (mk_reader (firstn 500 ex_header) 0) 0 = (Err EEof, 480, mk_reader (firstn 500 ex_header) 500).
Proof. split; vm_compute; reflexivity. Qed.

(** The hypotheses of [C12_reads_up_to_end] hold of that header. *)
Example C12_ex_records :
  end_record (padded 80 (chars "END")) /\ header_record (padded 80 (chars "WEIRD   = (1, 2)")).
Proof.
  assert (O: octets (padded 80 (chars "WEIRD   = (1, 2)")))
    by (vm_compute; repeat constructor; intro; discriminate).
  split.
  - split; [reflexivity|]. apply record_end. vm_compute. reflexivity.
  - split; [reflexivity|]. rewrite <- record_end, <- (parse_card_panic_iff _ O).
    split; vm_compute; discriminate.
Qed.

(** ** C07: nothing is dropped *)

Theorem C07_card_per_record : forall d p n cards n' r',
  octets d -> 0 <= p -> consume_cards (mk_reader d p) n = (Ok cards, n', r') ->
  forall i c, nth_error cards i = Some c -> reads_as (slice d (p + 80 * Z.of_nat i) 80) c.
Proof. exact cards_by_position. Qed.
Print Assumptions C07_card_per_record.

Theorem C07_undefined_preserved : forall d p n cards n' r' i,
  octets d -> 0 <= p -> consume_cards (mk_reader d p) n = (Ok cards, n', r') ->
  Z.of_nat i < len cards ->
  let record := slice d (p + 80 * Z.of_nat i) 80 in
  ((exists e, parse_card record = Err e) \/ (exists t, parse_card record = Ok (CUndefined t)) <->
   nth_error cards i = Some (CUndefined (utf8_lossy record))) /\
  (forall t, nth_error cards i = Some (CUndefined t) -> t = utf8_lossy record).
Proof. exact undefined_preserved. Qed.
Print Assumptions C07_undefined_preserved.

Theorem C07_ascii_text_exact : forall record,
  Forall (fun c => 0 <= c < 128) record -> utf8_lossy record = record.
Proof. exact utf8_lossy_ascii. Qed.
Print Assumptions C07_ascii_text_exact.

Example C07_ex :
  parse_card (slice ex_header 320 80) = Err EStatic /\
  nth_error (ex_cards ++ [CEnd]) 4 = Some (CUndefined (slice ex_header 320 80)).
Proof. split; vm_compute; reflexivity. Qed.

(** The HISTORY accessor returns the texts of the HISTORY records. *)
Theorem C07_history_accessor : forall d p n cards n' r',
  octets d -> 0 <= p -> consume_cards (mk_reader d p) n = (Ok cards, n', r') ->
  forall t, In t (history cards) <->
    exists i, 0 <= i < len cards /\ has_keyword (slice d (p + 80 * i) 80) (chars "HISTORY") /\
      stripped_right white (sanitized (skipn 8 (slice d (p + 80 * i) 80))) t.
Proof. exact history_spec. Qed.
Print Assumptions C07_history_accessor.

Theorem C07_check_card_keyword : forall b kw v,
  check_card_keyword b kw = Ok v <->
  firstn 8 b = kw /\ exists name, parse_card b = Ok (CValue name v).
Proof. exact check_keyword_spec. Qed.
Print Assumptions C07_check_card_keyword.

(** ** C13: the keyword table *)

Theorem C13_lookup : forall m cards vs,
  process_cards m (cards ++ [CEnd]) = Ok vs ->
  keywords vs = distinct (names cards) /\
  (forall name, get vs name = None <-> forall c v, In c cards -> defines c <> Some (name, v)) /\
  (forall pre c post name v, cards = pre ++ c :: post -> defines c = Some (name, v) ->
     (forall c' v', In c' post -> defines c' <> Some (name, v')) ->
     get vs name = Some (completed v post)).
Proof. exact table_spec. Qed.
Print Assumptions C13_lookup.

Theorem C13_keywords_once : forall m cards vs,
  process_cards m (cards ++ [CEnd]) = Ok vs ->
  NoDup (keywords vs) /\
  forall name, In name (keywords vs) <-> exists c v, In c cards /\ defines c = Some (name, v).
Proof. exact keywords_once. Qed.
Print Assumptions C13_keywords_once.

Theorem C13_first_appearance_order : forall l a b,
  (exists p q r, distinct l = p ++ a :: q ++ b :: r) ->
  exists p s, l = p ++ a :: s /\ ~ In a p /\ ~ In b p /\ In b s.
Proof. exact distinct_order. Qed.
Print Assumptions C13_first_appearance_order.

Example C13_ex : exists vs,
  process_cards Checked (ex_cards ++ [CEnd]) = Ok vs /\
  keywords vs = [chars "SIMPLE"; chars "NAXIS"; chars "OBJECT"] /\
  get vs (chars "NAXIS") = Some (VInteger 1 None) /\
  get vs (chars "OBJECT") = Some (VString (chars "ab") (Some (chars " one" ++ [10] ++ chars " two"))) /\
  get vs (chars "WEIRD") = None.
Proof. eexists. split; [vm_compute; reflexivity|]. repeat split; vm_compute; reflexivity. Qed.

(** ** C14: long strings *)

Theorem C14_long_string : forall kw first rest pre lcards post vs m,
  ordinary_keyword kw -> rest <> [] -> Forall piece_ok (first :: rest) ->
  let whole := rtrim (concat (map pc_text (first :: rest))) in
  (forall t, whole <> t ++ [38]) ->
  Forall2 reads_as (long_string_records kw first rest) lcards ->
  ~ In kw (names post) ->
  process_cards m (pre ++ lcards ++ post ++ [CEnd]) = Ok vs ->
  get vs kw = Some (VString whole (all_comments (first :: rest))).
Proof. exact long_string. Qed.
Print Assumptions C14_long_string.

Example C14_ex :
  let first := mk_piece (chars "it's ") 1 1 (Some (chars " c1")) in
  let rest := [mk_piece (chars "long & ") 2 0 None; mk_piece (chars "strong  ") 2 3 (Some (chars " c2 "))] in
  long_string_records (chars "STR") first rest =
    [padded 80 (chars "STR     =  'it''s &' / c1");
     padded 80 (chars "CONTINUE  'long & &'");
     padded 80 (chars "CONTINUE  'strong  '   / c2 ")] /\
  rtrim (concat (map pc_text (first :: rest))) = chars "it's long & strong" /\
  all_comments (first :: rest) = Some (chars " c1" ++ [10] ++ chars " c2").
Proof. repeat split; vm_compute; reflexivity. Qed.

(** An ampersand is kept when no CONTINUE record comes before the next definition. *)
Theorem C14_ampersand_kept : forall m pre c post n v vs,
  defines c = Some (n, v) -> ~ In n (names post) ->
  (forall a x rest, post = a ++ x :: rest -> Forall (fun y => defines y = None) a ->
     forall p cm, x <> CContinuation p cm) ->
  process_cards m (pre ++ c :: post ++ [CEnd]) = Ok vs ->
  get vs n = Some v.
Proof. exact amp_kept. Qed.
Print Assumptions C14_ampersand_kept.

Theorem C14_orphan_continue : forall pre p cm post m vs1 vs2,
  closed pre ->
  process_cards m (pre ++ CContinuation p cm :: post ++ [CEnd]) = Ok vs1 ->
  process_cards m (pre ++ post ++ [CEnd]) = Ok vs2 ->
  keywords vs1 = keywords vs2 /\ forall name, get vs1 name = get vs2 name.
Proof. exact orphan_continue. Qed.
Print Assumptions C14_orphan_continue.

Example C14_orphan_ex :
  closed [CValue (chars "A") (VString (chars "x&") None); CValue (chars "B") (VInteger 1 None)] /\
  exists vs,
  process_cards Wrapping
    [CValue (chars "A") (VString (chars "x&") None); CValue (chars "B") (VInteger 1 None);
     CContinuation (Some (chars "y")) None; CEnd] = Ok vs /\
  get vs (chars "A") = Some (VString (chars "x&") None).
Proof.
  split.
  - intros a c b n v E D N t cm. destruct a as [|a0 [|a1 [|? ?]]]; inversion E; subst; vm_compute in N, D;
      try discriminate. inversion D; subst. discriminate.
  - eexists. split; vm_compute; reflexivity.
Qed.

(** The standard requires the CONTINUE records to follow immediately; here a commentary record
    in between does not end the string. *)
Theorem C14_interrupted_string_refuted : exists vs,
  process_cards Checked
    [CValue (chars "A") (VString (chars "x&") None); CComment (chars "note");
     CContinuation (Some (chars "y")) None; CEnd] = Ok vs /\
  get vs (chars "A") = Some (VString (chars "xy") None).
Proof. eexists. split; vm_compute; reflexivity. Qed.
Print Assumptions C14_interrupted_string_refuted.

(** [Card::continued]: a string value, HIERARCH value or continuation that ends with an ampersand. *)
Theorem C14_continued : forall c, card_continued c = true <->
  exists t, (exists n tc, c = CValue n (VString (t ++ [38]) tc) \/ c = CHierarch n (VString (t ++ [38]) tc)) \/
            (exists tc, c = CContinuation (Some (t ++ [38])) tc).
Proof. exact continued_iff. Qed.
Print Assumptions C14_continued.

(** [Card::append]: a continuation to a continued value or HIERARCH value; everything else panics. *)
Theorem C14_append : forall m self r,
  (forall out, card_append m self r = Ok out <->
    exists n t tc p c, r = CContinuation p c /\
    ((self = CValue n (VString (t ++ [38]) tc) /\ out = CValue n (VString (joined t p) (joined_comment tc c))) \/
     (self = CHierarch n (VString (t ++ [38]) tc) /\ out = CHierarch n (VString (joined t p) (joined_comment tc c))))) /\
  (forall e, card_append m self r <> Err e).
Proof. exact card_append_all. Qed.
Print Assumptions C14_append.

Example C14_append_ex :
  card_append Checked (CHierarch (chars "A.B") (VString (chars "x &") (Some (chars " c")))) (CContinuation (Some (chars "y")) (Some (chars " d")))
  = Ok (CHierarch (chars "A.B") (VString (chars "x y") (Some (chars " c" ++ [10] ++ chars " d")))) /\
  card_append Wrapping (CValue (chars "A") (VInteger 1 None)) (CContinuation (Some (chars "y")) None) = Panic.
Proof. split; vm_compute; reflexivity. Qed.

(** ** C15: assembly never fails *)

Theorem C15_assembly_total : forall d p n cards n' r',
  octets d -> 0 <= p -> consume_cards (mk_reader d p) n = (Ok cards, n', r') ->
  exists vs, forall m, process_cards m cards = Ok vs.
Proof. exact assembly_total. Qed.
Print Assumptions C15_assembly_total.

Example C15_ex :
  octets ex_header /\
  (let '(r, _, _) := consume_cards (mk_reader ex_header 0) 0 in r) = Ok (ex_cards ++ [CEnd]).
Proof.
  split; [|vm_compute; reflexivity].
  vm_compute. repeat constructor; discriminate.
Qed.

(** ** C16: typed access *)

Theorem C16_integer_iff : forall lo hi vs k z,
  get_parsed (de_int lo hi) vs k = Ok z <->
  (exists c, get vs k = Some (VInteger z c)) /\ lo <= z <= hi.
Proof. exact typed_int. Qed.
Print Assumptions C16_integer_iff.

Theorem C16_integer_error : forall lo hi vs k,
  (forall z c, get vs k = Some (VInteger z c) -> ~ lo <= z <= hi) ->
  get_parsed (de_int lo hi) vs k = Err EDynamic.
Proof. exact typed_int_err. Qed.
Print Assumptions C16_integer_error.

Theorem C16_optional_integer : forall lo hi vs k,
  (get_parsed (de_option (de_int lo hi)) vs k = Ok None <->
     get vs k = None \/ get vs k = Some VUndefined) /\
  (forall z, get_parsed (de_option (de_int lo hi)) vs k = Ok (Some z) <->
     (exists c, get vs k = Some (VInteger z c)) /\ lo <= z <= hi) /\
  get_parsed (de_option (de_int lo hi)) vs k <> Panic.
Proof. exact typed_option. Qed.
Print Assumptions C16_optional_integer.

Theorem C16_other_types : forall vs k,
  (forall b, get_parsed de_bool vs k = Ok b <-> exists c, get vs k = Some (VLogical b c)) /\
  (forall s, get_parsed de_string vs k = Ok s <->
     (exists c, get vs k = Some (VString s c)) \/ get vs k = Some (VInvalid s)) /\
  (forall f, get_parsed de_f64 vs k = Ok f <->
     (exists c, get vs k = Some (VFloat f c)) \/
     (exists z c, get vs k = Some (VInteger z c) /\ f = FDec (z <? 0) (Z.abs z) 0)) /\
  (forall b, get_parsed de_bitpix vs k = Ok b <-> exists c, get vs k = Some (VInteger (bitpix_code b) c)).
Proof. exact typed_others. Qed.
Print Assumptions C16_other_types.

(** From the bytes of a record to the typed value. *)
Theorem C16_integer_end_to_end : forall d p n cards n' r' i kw lead s ds trail comment m vs,
  octets d -> 0 <= p -> consume_cards (mk_reader d p) n = (Ok cards, n', r') ->
  process_cards m cards = Ok vs ->
  ordinary_keyword kw -> Forall digit ds -> ds <> [] -> opt_printable comment ->
  0 <= i < len cards ->
  slice d (p + 80 * i) 80 = value_record kw (value_field lead (int_literal s ds) trail comment) ->
  (forall j name v, i < j < len cards ->
     parse_card (slice d (p + 80 * j) 80) = Ok (CValue name v) \/
     parse_card (slice d (p + 80 * j) 80) = Ok (CHierarch name v) -> name <> kw) ->
  let x := apply_sign s (dec_value ds) in
  - 2 ^ 63 <= x <= 2 ^ 63 - 1 ->
  get vs kw = Some (VInteger x (option_map rtrim comment)) /\ get_parsed de_i64 vs kw = Ok x.
Proof. exact integer_end_to_end. Qed.
Print Assumptions C16_integer_end_to_end.

Example C16_ex :
  let vs := [(chars "A", VInteger 300 None); (chars "B", VString (chars "7") None); (chars "C", VUndefined)] in
  get_parsed de_u8 vs (chars "A") = Err EDynamic /\
  get_parsed de_i64 vs (chars "A") = Ok 300 /\
  get_parsed de_u64 vs (chars "B") = Err EDynamic /\
  get_parsed (de_option de_u64) vs (chars "C") = Ok None /\
  slice ex_header 400 80 = value_record (chars "NAXIS") (value_field 0 (int_literal NoSign [1]) 0 None).
Proof. repeat split; vm_compute; reflexivity. Qed.
