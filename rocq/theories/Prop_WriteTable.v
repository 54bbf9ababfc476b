(** Properties of whole files with binary tables (C61): what a program following the standard writes
    is what the crate gives back.  [SpecWriteTable] holds the writing side: [table_written] for every
    spelling the standard allows, [write_file] for one concrete writer. *)

From Coq Require Import String List.
From Verif Require Import Base Utf8 Text Card Reader Header Xtension Bytes Fits ImageIt BinTable.
From Verif Require Import SpecUtf8 SpecCard SpecHeader SpecXt SpecFits SpecImage SpecBin SpecWrite SpecWriteTable.
From Verif Require Import WriteProofs WriteProofs2 WriteProofs3 WriteProofs4 WriteProofs5.
Local Open Scope string_scope.
Local Open Scope list_scope.
Local Open Scope Z_scope.

(** A table HDU anywhere in a file: it is accepted, ... *)
Theorem C61_table_accepted : forall m cols rows s,
  table_written cols rows s -> accepted m (HBinTable, s).
Proof. exact accepted_table. Qed.
Print Assumptions C61_table_accepted.

(** ... and the call of [next] that reaches it gives its columns and number of rows.  Its values are
    those written: one by one, after seeks, row by row, for selected columns, and as raw bytes;
    whatever was read from the HDUs before. *)
Theorem C61_table_read_back : forall m d pre s post cols rows l f,
  octets d -> file_kinds (pre ++ (HBinTable, s) :: post) -> Forall (accepted m) pre -> table_written cols rows s ->
  d = file_bytes (pre ++ (HBinTable, s) :: post) -> len d < 2 ^ 63 ->
  yields m (opened d) l f -> List.length l = S (List.length pre) ->
  exists l' h t tb, l = l' ++ [IOk h] /\ h_kind h = HBinTable /\ h_xt h = XtBin t /\
    bt_tforms t = forms cols /\ bt_ttypes t = map tc_name cols /\ bt_naxis2 t = len rows /\
    get_table m f t = Ok tb /\ table_raw_bytes m tb = Ok (s_data s) /\
    let values := row_values (forms cols) (upto (len cols)) in
    let from i := flat_map values (skipn (Z.to_nat i) rows) in
    (forall n, fst (table_run m tb (repeat TNext n)) = firstn n (map TValue (from 0) ++ repeat TEnd n)) /\
    (forall ops, seek_ok (forms cols) (len rows) from (from 0) ops ->
       fst (table_run m tb ops) = seek_spec (len rows) from (from 0) ops) /\
    (forall fuel n, (1 <= fuel)%nat -> (forall r, In r rows -> (List.length (values r) <= fuel)%nat) ->
       row_run m fuel (row_iter tb) n = firstn n (map RowOf (map values rows) ++ repeat RowEnd n)) /\
    (forall ids sel, Forall id_ok ids -> distinct t ids -> selection t ids sel -> sel <> [] -> rows <> [] ->
       (forall n, fst (table_run m (select_fields tb ids) (repeat TNext n))
                  = firstn n (map TValue (flat_map (row_values (forms cols) sel) rows) ++ repeat TEnd n)) /\
       (forall fuel n, (1 <= fuel)%nat -> (forall r, In r rows -> (List.length (row_values (forms cols) sel r) <= fuel)%nat) ->
          row_run m fuel (row_iter (select_fields tb ids)) n
          = firstn n (map RowOf (map (row_values (forms cols) sel) rows) ++ repeat RowEnd n))).
Proof. exact table_read_back. Qed.
Print Assumptions C61_table_read_back.

(** A whole file of images and tables, in any spelling and order: the HDUs come in order and then
    [None]; after each of them its pixels or rows are those written. *)
Theorem C61_file_read_back : forall m d hs cs,
  octets d -> file_kinds hs -> Forall2 content_written cs hs -> d = file_bytes hs -> len d < 2 ^ 63 ->
  exists full, Forall2 shown cs full /\
    (exists f, yields m (opened d) (full ++ [INone]) f) /\
    forall l f, yields m (opened d) l f ->
      ((List.length l <= List.length cs + 1)%nat -> l = firstn (List.length l) (full ++ [INone])) /\
      forall n c, List.length l = S n -> nth_error cs n = Some c ->
        exists i, nth_error l n = Some i /\ contained m c i f.
Proof. exact files_listed. Qed.
Print Assumptions C61_file_read_back.

(** Every list of images and tables has such a file. *)
Theorem C61_files_round_trip : forall m p cs,
  picture_ok p -> Forall content_ok cs -> let d := file_bytes (write_file p cs) in len d < 2 ^ 63 ->
  exists full, Forall2 shown (Picture p :: cs) full /\
    (exists f, yields m (opened d) (full ++ [INone]) f) /\
    forall l f, yields m (opened d) l f ->
      ((List.length l <= List.length full + 1)%nat -> l = firstn (List.length l) (full ++ [INone])) /\
      forall n c, List.length l = S n -> nth_error (Picture p :: cs) n = Some c ->
        exists i, nth_error l n = Some i /\ contained m c i f.
Proof. exact files_round_trip. Qed.
Print Assumptions C61_files_round_trip.

(** A table with a named integer column, a pair of doubles, two characters and an array column. *)
Definition ex_columns : list tcolumn :=
  [mk_tcolumn (chars "1J") (TElem TyJ 1) (Some (chars "ID")); mk_tcolumn (chars "2D") (TElem TyD 2) None;
   mk_tcolumn (chars "2A") (TElem TyA 2) (Some (chars "NAME")); mk_tcolumn (chars "1PI(3)") (TDesc32 TyI) (Some (chars "SAMPLES"))].
Definition ex_rows : list (list (list (list Z))) :=
  [[[[-7]]; [[4607182418800017408]; [0]]; [[65]; [66]]; [[1]; [-2]; [3]]];
   [[[8]]; [[1]; [2]]; [[67]; [68]]; [[500]]]].

Lemma ends_otherwise s : last s 0 <> 38 -> whole (SaysText s).
Proof. intros L t ->. apply L. apply last_last. Qed.
Lemma said_text s : forallb (fun c => (32 <=? c) && (c <=? 126)) s = true -> last s 32 <> 32 ->
  (List.length (escape_quotes (padded 8 s)) <= 68)%nat -> sayable (SaysText s).
Proof.
  intros P L E. split; [|split; auto].
  - apply Forall_forall. intros c I. rewrite forallb_forall in P. specialize (P c I). unfold printable. lia.
  - destruct (@exists_last _ s) as (t & c & ->); [intros ->; now apply L|].
    exists t, c. split; auto. now rewrite last_last in L.
Qed.

Example C61_ex_ok : Forall content_ok [Tabular (ex_columns, ex_rows); Picture (BU8, [2], [7; 9])].
Proof.
  assert (TF : forall t n x ds rest name, Forall digit ds -> n = repeat_of ds -> x = digit_chars ds ++ type_letter t :: rest ->
             last x 0 <> 38 -> t <> TyX -> 1 <= n -> match name with Some y => last y 0 <> 38 | None => True end ->
             column_ok (mk_tcolumn x (TElem t n) name)).
  { intros t n x ds rest name D N X L T R Y. split; [exists ds, rest; split; [exact D|split; assumption]|]. split; [now apply ends_otherwise|].
    split; auto. split; [intros t' n' E; injection E as <- <-; auto|]. destruct name; auto. now apply ends_otherwise. }
  apply Forall_cons; [|apply Forall_cons; [|apply Forall_nil]].
  - split; [vm_compute; split; discriminate|]. split; [|split; [|split; [vm_compute; reflexivity|split]]].
    + apply Forall_cons; [|apply Forall_cons; [|apply Forall_cons; [|apply Forall_cons; [|apply Forall_nil]]]].
      * apply (TF TyJ 1 _ [1] []); try (vm_compute; congruence || (repeat constructor; lia)); vm_compute; repeat constructor; congruence.
      * apply (TF TyD 2 _ [2] []); try (vm_compute; congruence || (repeat constructor; lia)); vm_compute; repeat constructor; congruence.
      * apply (TF TyA 2 _ [2] []); try (vm_compute; congruence || (repeat constructor; lia)); vm_compute; repeat constructor; congruence.
      * split; [|split; [apply ends_otherwise; vm_compute; congruence|split; [discriminate|split; [discriminate|apply ends_otherwise; vm_compute; congruence]]]].
        exists [1], (chars "(3)"). split; [|reflexivity]. vm_compute. repeat constructor; congruence.
    + repeat (apply Forall_cons; [split; [apply said_text; vm_compute; [reflexivity|congruence|lia]|
        first [exact I | apply said_text; vm_compute; [reflexivity|congruence|lia]]]|]). apply Forall_nil.
    + repeat (apply Forall_cons || apply Forall_nil || apply Forall2_cons || apply Forall2_nil);
        (split; [repeat (apply Forall_cons || apply Forall_nil); vm_compute; auto; try (split; congruence)|
                 first [reflexivity | split; [discriminate|reflexivity]]]).
    + vm_compute. split; [reflexivity|]. split; reflexivity.
  - split; [vm_compute; discriminate|]. split; [repeat constructor; lia|].
    split; [|split; [reflexivity|repeat constructor; vm_compute; discriminate]].
    intros [|a [|b l]] r E; [reflexivity| |discriminate]. injection E as <- _. reflexivity.
Qed.

Example C61_ex :
  let d := file_bytes (write_file (BU8, [], []) [Tabular (ex_columns, ex_rows); Picture (BU8, [2], [7; 9])]) in
  let f := snd (run Checked 2 (opened d)) in
  len d = 5 * 2880 /\
  slice d 2880 80 = chars "XTENSION= 'BINTABLE'" ++ blanks 60 /\
  match nth_error (fst (run Checked 2 (opened d))) 1 with
  | Some (IOk h) =>
    match h_xt h with
    | XtBin t =>
      match get_table Checked f t with
      | Ok tb =>
        fst (table_run Checked tb [TNext; TNext; TSeek 1; TNext])
        = [TValue (DVal TyJ [-7] 0 0); TValue (DVal TyD [4607182418800017408] 1 0); TDone; TValue (DVal TyJ [8] 0 0)] /\
        row_run Checked 9 (row_iter tb) 3
        = [RowOf [DVal TyJ [-7] 0 0; DVal TyD [4607182418800017408] 1 0; DVal TyD [0] 1 1; DVal TyA [65] 2 0; DVal TyA [66] 2 1;
                  DVal TyI [1] 3 0; DVal TyI [-2] 3 1; DVal TyI [3] 3 2];
           RowOf [DVal TyJ [8] 0 0; DVal TyD [1] 1 0; DVal TyD [2] 1 1; DVal TyA [67] 2 0; DVal TyA [68] 2 1; DVal TyI [500] 3 0];
           RowEnd]
      | _ => False
      end
    | _ => False
    end
  | _ => False
  end.
Proof. vm_compute. repeat split. Qed.
