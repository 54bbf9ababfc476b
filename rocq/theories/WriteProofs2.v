(** Proofs about files written by the standard: HDUs in a file, images. *)

From Verif Require Import Base Utf8 Text Card Reader Header Xtension Bytes Fits ImageIt.
From Verif Require Import SpecUtf8 SpecCard SpecHeader SpecXt SpecFits SpecImage SpecWrite.
From Verif Require Import TextLemmas CardProofs CardProofs2 CardProps HeaderProofs HeaderProofs2 HeaderProps.
From Verif Require Import FitsProofs FitsProofs2 FitsProofs3 FitsProofs4 XtProofs XtProofs2 XtProofs3 BytesProofs ImageProofs.
From Verif Require Import WriteProofs.
From Coq Require Import ZifyBool.

(** ** Keywords *)

Definition lettersb (n : str) : bool := forallb (fun c => (33 <=? c) && (c <=? 126) && negb (c =? 46)) n.
Definition specialb (n : str) : bool :=
  existsb (str_eqb n) [chars "COMMENT"; chars "HISTORY"; chars "CONTINUE"; chars "XTENSION"; chars "HIERARCH"; chars "END"].
Definition keywordb (n : str) : bool :=
  (1 <=? len n) && (len n <=? 8) && lettersb n && negb (specialb n).

Lemma lettersb_ok n : lettersb n = true -> simple_name n.
Proof.
  unfold lettersb, simple_name. rewrite forallb_forall. intro H. split.
  - apply Forall_forall. intros c I. apply H in I. unfold graphic. lia.
  - intro I. apply H in I. discriminate.
Qed.

Lemma specialb_ok n : specialb n = false -> ~ special_keyword n.
Proof.
  unfold specialb, special_keyword. intros H S.
  assert (existsb (str_eqb n) [chars "COMMENT"; chars "HISTORY"; chars "CONTINUE"; chars "XTENSION"; chars "HIERARCH"; chars "END"] = true); [|congruence].
  apply existsb_exists. exists n. split; [|apply str_eqb_refl]. cbn [map In].
  repeat (destruct S as [S|S]; [now auto 8|]). now auto 10.
Qed.

Lemma keywordb_ok n : keywordb n = true -> ordinary_keyword n /\ simple_name n.
Proof.
  unfold keywordb. intro H. apply andb_prop in H as (H & S). apply andb_prop in H as (H & L).
  apply andb_prop in H as (H1 & H2). apply lettersb_ok in L. split; auto.
  split; [unfold len in *; lia|]. split; [apply L|]. apply specialb_ok. now destruct (specialb n).
Qed.

(** Names with an index. *)
Definition has_digit (n : str) : Prop := exists c, In c n /\ 48 <= c <= 57.

Lemma indexed_parts name i : 0 <= i ->
  exists ds, indexed name i = name ++ digit_chars ds /\ Forall digit ds /\ ds <> [] /\ dec_value ds = i /\
    (ds = [0] \/ exists d r, ds = d :: r /\ d <> 0).
Proof.
  intro I. destruct (dec_decimal i I) as (ds & E & F & N & V & Z0). exists ds. unfold indexed. rewrite E. auto.
Qed.

Lemma indexed_digit name i : 0 <= i -> has_digit (indexed name i).
Proof.
  intro I. destruct (indexed_parts name i I) as (ds & -> & F & N & _). destruct ds as [|d ds]; [congruence|].
  inversion F; subst. exists (48 + d). split; [apply in_or_app; right; now left|]. unfold digit in *. lia.
Qed.

Lemma digits_length ds n : Forall digit ds -> (ds = [0] \/ exists d r, ds = d :: r /\ d <> 0) ->
  0 <= n -> dec_value ds < 10 ^ n -> len ds <= Z.max 1 n.
Proof.
  intros F [->|(d & r & -> & D)] N V; [unfold len; simpl; lia|].
  inversion F as [|? ? Hd Hr]; subst. cbn [dec_value] in V. rewrite len_cons.
  pose proof (dec_value_nonneg r Hr). unfold digit in Hd. fold (len r) in V.
  assert (len r < n); [|lia].
  apply Z.nle_gt. intro L. pose proof (Z.pow_le_mono_r 10 n (len r) ltac:(lia) L).
  pose proof (Z.pow_pos_nonneg 10 (len r) ltac:(lia) (len_nonneg r)). nia.
Qed.

Lemma has_digit_not_special n : has_digit n -> ~ special_keyword n.
Proof.
  intros (c & I & C) S. assert (Forall (fun c => ~ 48 <= c <= 57) n) as F.
  { clear -S. repeat (destruct S as [S|S]; [subst n; unfold chars; cbn; repeat (apply Forall_cons; [lia|]); apply Forall_nil|]).
    subst n; unfold chars; cbn; repeat (apply Forall_cons; [lia|]); apply Forall_nil. }
  rewrite Forall_forall in F. exact (F c I C).
Qed.

Lemma indexed_keyword name i : 1 <= i <= 999 -> lettersb name = true -> 1 <= len name <= 5 ->
  ordinary_keyword (indexed name i) /\ simple_name (indexed name i).
Proof.
  intros I L N. pose proof (has_digit_not_special _ (indexed_digit name i ltac:(lia))) as S.
  destruct (indexed_parts name i ltac:(lia)) as (ds & E & F & NE & V & LZ). rewrite E in *.
  apply lettersb_ok in L as (G & D).
  assert (DL := digits_length ds 3 F LZ ltac:(lia) ltac:(lia)).
  assert (G' : Forall graphic (name ++ digit_chars ds)).
  { apply Forall_app. split; auto. apply Forall_map. eapply Forall_impl; [|exact F]. unfold digit, graphic. simpl. lia. }
  split.
  - split; [|split; auto]. rewrite app_length. unfold digit_chars. rewrite map_length. unfold len in *. lia.
  - split; auto. intro H. apply in_app_or in H as [H|H]; auto.
    apply in_map_iff in H as (d & H & ID). rewrite Forall_forall in F. apply F in ID. unfold digit in ID. lia.
Qed.

(** ** The opening record *)

Lemma canonical_inv t s : canonical_string t = s -> s <> [] -> s <> [32] -> exists n, t = s ++ blanks n.
Proof.
  intros E N0 N1. unfold canonical_string in E. destruct t as [|c t]; [congruence|].
  destruct (rtrim_spec (c :: t)) as (w & W & F & _). destruct (rtrim (c :: t)) as [|x r] eqn:R; [congruence|].
  subst s. exists (length w). rewrite W at 1. f_equal. unfold blanks. clear -F.
  induction F; cbn [length repeat]; [reflexivity|]. now f_equal.
Qed.

Lemma opening_xtension name x r :
  written (chars "XTENSION") (SaysText name) r -> Forall printable name -> compact name ->
  (str_eqb name (chars "IMAGE") || str_eqb name (chars "IUEIMAGE") = true /\ x = XImage \/
   name = chars "TABLE" /\ x = XAsciiTable \/ name = chars "BINTABLE" /\ x = XBinTable) ->
  header_record r /\ octets r /\ exists c, parse_card r = Ok (CXtension x c).
Proof.
  intros W P C X.
  assert (O : octets r).
  { apply printable_octet. apply (written_printable (chars "XTENSION") (SaysText name)); auto. apply lettersb_ok. reflexivity. }
  assert (L : length r = 80%nat) by (eapply written_length; [|exact W]; simpl; lia).
  assert (PC : exists c, parse_card r = Ok (CXtension x c)).
  { inversion W as [|lead t trail c PT PO LF E1 E2|]; subst.
    destruct (canonical_inv t _ eq_refl) as (n & E).
    { destruct C as ((a & b & C & _) & _). rewrite C. discriminate. }
    { destruct C as ((a & b & C & A) & _). rewrite C. congruence. }
    set (name := canonical_string t) in *. rewrite E.
    pose proof (xtension_record lead name 0 n trail c P C PO) as R. cbn [blanks repeat app] in R.
    exists (option_map rtrim c). rewrite R. destruct X as [(X & ->)|[(X & ->)|(X & ->)]].
    - rewrite X. reflexivity.
    - rewrite X. reflexivity.
    - rewrite X. reflexivity. }
  split; [|split; auto]. destruct PC as (c & PC). eapply parsed_header_record; eauto. discriminate.
Qed.

Lemma compactb l : (match l with c :: _ => negb (c =? 32) | [] => false end) && (match rev l with c :: _ => negb (c =? 32) | [] => false end) = true -> compact l.
Proof.
  intro H. apply andb_prop in H as (A & B). split.
  - destruct l as [|c l]; [discriminate|]. exists c, l. split; auto. lia.
  - destruct (rev l) as [|c r] eqn:E; [discriminate|]. exists (rev r), c. split; [|lia].
    rewrite <- (rev_involutive l), E. reflexivity.
Qed.

Lemma printableb l : forallb (fun c => (32 <=? c) && (c <=? 126)) l = true -> Forall printable l.
Proof. rewrite forallb_forall. intro H. apply Forall_forall. intros c I. apply H in I. unfold printable. lia. Qed.

Lemma opening_ok k r : opening k r -> header_record r /\ octets r /\ exists c, reads_as r c /\ opens k c /\ c <> CEnd.
Proof.
  intro H. destruct k; cbn [opening] in H.
  - destruct (written_record (chars "SIMPLE") (SaysLogical true) r) as (A & B & c & R); auto.
    { apply keywordb_ok. reflexivity. }
    split; auto. split; auto. eexists. split; [exact R|]. split; [|discriminate]. cbn [value_said opens]. eauto.
  - destruct (opening_xtension _ XImage r H) as (A & B & c & R); [apply printableb; reflexivity|apply compactb; reflexivity|left; split; reflexivity|].
    split; auto. split; auto. eexists. split; [left; exact R|]. split; [|discriminate]. cbn [opens xtype_of]. eauto.
  - destruct (opening_xtension _ XBinTable r H) as (A & B & c & R); [apply printableb; reflexivity|apply compactb; reflexivity|auto|].
    split; auto. split; auto. eexists. split; [left; exact R|]. split; [|discriminate]. cbn [opens xtype_of]. eauto.
  - destruct (opening_xtension _ XAsciiTable r H) as (A & B & c & R); [apply printableb; reflexivity|apply compactb; reflexivity|auto|].
    split; auto. split; auto. eexists. split; [left; exact R|]. split; [|discriminate]. cbn [opens xtype_of]. eauto.
Qed.

(** ** HDUs *)

Definition proper_entries (es : list (str * said)) (ns : list str) : Prop :=
  Forall (fun e => ordinary_keyword (fst e)) es /\ Forall simple_name (map fst es ++ ns) /\
  Forall (fun e => whole (snd e)) es /\ NoDup (map fst es).

Lemma unit_table k es ns s : proper_entries es ns -> unit_of k es ns s ->
  exists vs c cards, Forall header_record (s_records s) /\ Forall2 reads_as (s_records s) (c :: cards) /\
    opens k c /\ (forall m, process_cards m (c :: cards ++ [CEnd]) = Ok vs) /\
    (forall kw v, In (kw, v) es -> says vs kw v) /\
    (forall n, In n ns -> ~ In n (map fst es) -> n <> chars "SIMPLE" -> n <> chars "XTENSION" -> get vs n = None).
Proof.
  intros (P1 & P2 & P3 & P4) ((r & rs & E & Op & H) & _).
  destruct (opening_ok k r Op) as (HR & O & c & R & OC & NE).
  destruct (header_says _ es rs c NE P2 P1 P3 P4 ltac:(apply incl_appl, incl_refl) H)
    as (cards & vs & F & HRs & _ & PC & S & NG).
  exists vs, c, cards. rewrite E. split; [constructor; auto|]. split; [constructor; auto|].
  split; auto. split; auto. split; auto.
  intros n I NI N1 N2. apply NG; auto; [apply in_or_app; now right|].
  intros v D. destruct k; cbn [opens] in OC; destruct OC as (cm & ->); cbn [defines xtype_of] in D; injection D as <- _; congruence.
Qed.

Lemma unit_well_formed m k es ns s x :
  proper_entries es ns -> unit_of k es ns s ->
  (forall vs, (forall kw v, In (kw, v) es -> says vs kw v) ->
     (forall n, In n ns -> ~ In n (map fst es) -> n <> chars "SIMPLE" -> n <> chars "XTENSION" -> get vs n = None) ->
     xt_parse m (xtype_of k) vs = Ok x /\ declares vs k (len (s_data s))) ->
  exists vs', well_formed m k s vs' x.
Proof.
  intros P U X. destruct (unit_table k es ns s P U) as (vs' & c & cards & HR & F & OC & PC & S & NG).
  destruct (X vs' S NG) as (X1 & X2). destruct U as (_ & E & L1 & L2).
  exists vs'. split; auto. split; auto. split; auto. split; auto. exists c, cards. auto 6.
Qed.

Lemma header_of_int ns es rs kw n : header_of ns es rs -> In (kw, SaysInt n) es -> - 2 ^ 63 <= n < 2 ^ 63.
Proof.
  induction 1 as [|kw' v es r rs W H IH|es r rs Ot H IH]; intro I; [contradiction| |auto].
  destruct I as [I|I]; auto. injection I as -> ->. inversion W; subst; auto.
Qed.

(** ** Images *)

Lemma axis_names name i axes e : In e (axis_entries name i axes) -> 0 <= i ->
  exists j a, i <= j < i + len axes /\ e = (indexed name j, SaysInt a) /\ In a axes.
Proof.
  revert i. induction axes as [|a axes IH]; intros i I P; [contradiction|]. cbn [axis_entries] in I. rewrite len_cons.
  pose proof (len_nonneg axes). destruct I as [<-|I].
  - exists i, a. split; [lia|]. split; auto. now left.
  - destruct (IH (i + 1) I ltac:(lia)) as (j & b & J & -> & IB). exists j, b. split; [lia|]. split; auto. now right.
Qed.

Lemma axis_nodup name i axes : 0 <= i -> NoDup (map fst (axis_entries name i axes)).
Proof.
  revert i. induction axes as [|a axes IH]; intros i P; cbn [axis_entries map fst]; constructor; [|apply IH; lia].
  intro I. apply in_map_iff in I as (e & E & I). apply axis_names in I as (j & b & J & -> & _); [|lia].
  cbn [fst] in E. apply indexed_inj in E; lia.
Qed.

Lemma axis_says vs name i axes :
  (forall kw v, In (kw, v) (axis_entries name i axes) -> says vs kw v) -> Forall u64 axes -> axes_from vs name i axes.
Proof.
  revert i. induction axes as [|a axes IH]; intros i S U; cbn [axes_from]; auto. inversion U; subst.
  split; [|split; auto].
  - destruct (S (indexed name i) (SaysInt a)) as (c & G); [now left|]. exists c. exact G.
  - apply IH; auto. intros kw v I. apply S. now right.
Qed.

Lemma says_int vs kw n : says vs kw (SaysInt n) -> has_int vs kw n.
Proof. intros (c & G). exists c. exact G. Qed.

Definition no_digitb (n : str) : bool := forallb (fun c => negb ((48 <=? c) && (c <=? 57))) n.
Lemma no_digit_indexed n name i : no_digitb n = true -> 0 <= i -> n <> indexed name i.
Proof.
  intros D I E. destruct (indexed_digit name i I) as (c & IC & C). rewrite <- E in IC.
  unfold no_digitb in D. rewrite forallb_forall in D. apply D in IC. lia.
Qed.

Lemma image_entries_proper k b axes : len axes <= 999 -> proper_entries (image_entries k b axes) [].
Proof.
  intro L.
  assert (A : forall e, In e (image_entries k b axes) ->
            (ordinary_keyword (fst e) /\ simple_name (fst e)) /\ whole (snd e)).
  { intros e I. destruct I as [<-|[<-|I]]; [split; [apply keywordb_ok; reflexivity|exact Logic.I]..|].
    apply in_app_or in I as [I|I].
    - apply axis_names in I as (j & a & J & -> & _); [|lia]. split; [|exact Logic.I].
      cbn [fst]. apply indexed_keyword; [lia|reflexivity|vm_compute; split; discriminate].
    - destruct k; cbn [In] in I; try contradiction;
        (destruct I as [<-|[<-|[]]]; split; [apply keywordb_ok; reflexivity|exact Logic.I|apply keywordb_ok; reflexivity|exact Logic.I]). }
  split; [|split; [|split]].
  - apply Forall_forall. intros e I. apply (A e I).
  - rewrite app_nil_r. apply Forall_map, Forall_forall. intros e I. apply (A e I).
  - apply Forall_forall. intros e I. apply (A e I).
  - assert (NI : forall n, no_digitb n = true -> ~ In n (map fst (axis_entries (chars "NAXIS") 1 axes))).
    { intros n D I. apply in_map_iff in I as (e & E & I). apply axis_names in I as (j & a & J & -> & _); [|lia].
      cbn [fst] in E. symmetry in E. revert E. apply no_digit_indexed; [auto|lia]. }
    unfold image_entries. cbn [map fst]. rewrite map_app.
    set (tl := map fst (match k with HPrimary => [] | _ => [(chars "PCOUNT", SaysInt 0); (chars "GCOUNT", SaysInt 1)] end)).
    assert (TL : forall n, In n tl -> n = chars "PCOUNT" \/ n = chars "GCOUNT").
    { intros n I. unfold tl in I. destruct k; cbn in I; intuition auto. }
    assert (TD : NoDup tl).
    { unfold tl. destruct k; cbn [map fst]; repeat constructor; cbn [In]; try tauto; intros [H|[]]; discriminate. }
    constructor; [|constructor].
    + intros [I|I]; [discriminate|]. apply in_app_or in I as [I|I]; [now apply NI in I|].
      apply TL in I as [I|I]; discriminate.
    + intro I. apply in_app_or in I as [I|I]; [now apply NI in I|]. apply TL in I as [I|I]; discriminate.
    + clear TL. revert NI. pose proof (axis_nodup (chars "NAXIS") 1 axes ltac:(lia)) as ND.
      assert (DJ : forall n, In n (map fst (axis_entries (chars "NAXIS") 1 axes)) -> ~ In n tl).
      { intros n I J. assert (no_digitb n = true).
        { unfold tl in J. destruct k; cbn in J; intuition (subst; reflexivity). }
        apply in_map_iff in I as (e & E & I). apply axis_names in I as (j & a & J' & -> & _); [|lia].
        cbn [fst] in E. symmetry in E. revert E. apply no_digit_indexed; [auto|lia]. }
      intros _. induction ND as [|x l NX ND IH]; [exact TD|]. cbn [app]. constructor.
      * intro I. apply in_app_or in I as [I|I]; auto. exact (DJ x (or_introl eq_refl) I).
      * apply IH. intros n I. apply DJ. now right.
Qed.

Lemma width_bits b : Z.abs (bitpix_code b) / 8 = width b.
Proof. destruct b; reflexivity. Qed.

Lemma concat_encode_len b l : len (concat (map (encode b) l)) = width b * len l.
Proof.
  induction l as [|v l IH]; cbn [map concat]; [unfold len; simpl; lia|].
  rewrite len_app, IH, len_cons. unfold encode, be_bytes, len at 1. rewrite map_length, seq_length.
  destruct b; cbn; lia.
Qed.

Lemma image_well_formed m k b axes pixels s : image_written k b axes pixels s ->
  exists vs, well_formed m k s vs (XtImage (mk_image b axes)).
Proof.
  intros (K & L & NN & PP & LP & R & U & D).
  eapply (unit_well_formed m k _ [] s _ (image_entries_proper k b axes L) U).
  intros vs S _.
  assert (UA : Forall u64 axes).
  { destruct U as ((r & rs & _ & _ & H) & _). apply Forall_forall. intros a I.
    rewrite Forall_forall in NN. specialize (NN a I). unfold u64.
    assert (exists n, In (n, SaysInt a) (axis_entries (chars "NAXIS") 1 axes)) as (n & IN).
    { generalize 1. clear -I. induction axes as [|x axes IH]; intro i; [contradiction|].
      destruct I as [->|I]; [exists (indexed (chars "NAXIS") i); now left|].
      destruct (IH I (i + 1)) as (n & J). exists n. now right. }
    pose proof (header_of_int _ _ _ n a H) as B.
    assert (- 2 ^ 63 <= a < 2 ^ 63); [|lia]. apply B. right. right. apply in_or_app. now left. }
  assert (B : has_int vs (chars "BITPIX") (bitpix_code b)) by (apply says_int, S; now left).
  assert (N : has_int vs (chars "NAXIS") (len axes)) by (apply says_int, S; right; now left).
  assert (A : axes_from vs (chars "NAXIS") 1 axes).
  { apply axis_says; auto. intros kw v I. apply S. right. right. apply in_or_app. now left. }
  assert (IP : image_parse vs = Ok (mk_image b axes)).
  { apply image_parse_iff. cbn [im_bitpix im_naxisn]. pose proof (len_nonneg axes). unfold u64. repeat split; auto; lia. }
  assert (LD : len (s_data s) = if len axes =? 0 then 0 else Z.abs (bitpix_code b) / 8 * product axes).
  { rewrite D, concat_encode_len, LP, width_bits. destruct (len axes =? 0); lia. }
  destruct K as [-> | ->]; cbn [xtype_of xt_parse]; rewrite IP; cbn [bind]; split; auto;
    exists b, axes; auto 6.
Qed.

(** ** The HDU at a place of the file *)

Lemma nth_hdu m d pre k s post l f2 :
  octets d -> file_kinds (pre ++ (k, s) :: post) -> Forall (accepted m) (pre ++ [(k, s)]) ->
  d = file_bytes (pre ++ (k, s) :: post) -> len d < 2 ^ 63 ->
  yields m (opened d) l f2 -> length l = S (length pre) ->
  exists l' h f, l = l' ++ [IOk h] /\ rd_data (f_reader f) = d /\ 0 <= rd_pos (f_reader f) /\
    next m f = (IOk h, f2) /\ read_from m k (len (file_bytes pre)) s h /\
    h_offset h + len (s_data s) <= len d /\ slice d (h_offset h) (len (s_data s)) = s_data s.
Proof.
  intros O K A D B Y L. apply Forall_app in A as (A & A1). inversion A1 as [|? ? (vs & x & W) _]; subst. cbn [fst snd] in W.
  destruct (@exists_last _ l) as (l' & i & ->); [destruct l; discriminate|].
  rewrite app_length in L. cbn [length] in L. assert (L' : length l' = length pre) by lia. clear L.
  destruct (yields_split _ _ _ _ _ Y) as (f1 & Y1 & Y2); [discriminate|].
  set (d := file_bytes (pre ++ (k, s) :: post)) in *.
  assert (D : d = file_bytes pre ++ header_bytes s ++ s_data s ++ s_dpad s ++ file_bytes post).
  { unfold d, file_bytes. rewrite map_app, concat_app. cbn [map concat snd]. unfold hdu_bytes. now rewrite <- !app_assoc. }
  assert (LD : len d = len (file_bytes pre) + len (hdu_bytes s) + len (file_bytes post)).
  { rewrite D. unfold hdu_bytes. rewrite !len_app. lia. }
  pose proof (len_nonneg (file_bytes post)). pose proof (len_nonneg (file_bytes pre)).
  pose proof (len_nonneg (s_dpad s)).
  assert (K1 : kinds_from true pre /\ prim k = match pre with [] => true | _ => false end).
  { destruct pre as [|(k0, s0) pre]; cbn [app file_kinds kinds_from] in *.
    - destruct K as (-> & _). auto.
    - destruct K as (-> & F). apply Forall_app in F as (F1 & F2). inversion F2; subst. cbn [fst] in *.
      split; auto. destruct k; auto. congruence. }
  destruct K1 as (K1 & K2).
  destruct (iterate m d O pre (opened d) 0) as (full & f' & _ & _ & YF & RD & ST & _ & FU); auto.
  - apply ready_opened.
  - apply (placed_concat d pre 0 (header_bytes s ++ s_data s ++ s_dpad s ++ file_bytes post)); [lia|]. exact D.
  - rewrite total_len_concat. fold (file_bytes pre). pose proof (len_nonneg (hdu_bytes s)). lia.
  - pose proof (FU l' f1 Y1 L') as ->. rewrite Z.add_0_l, total_len_concat in RD. fold (file_bytes pre) in RD.
    inversion Y2 as [|f0 p0 f0' L0 N0|f0 p i0 f0' l0 f0'' L0 N0 NP Y0]; subst.
    + exfalso. destruct (step_hdu m d f' (len (file_bytes pre)) k s vs x (s_data s ++ s_dpad s ++ file_bytes post) p0)
        as (h & f'' & N & _); auto.
      * rewrite K2. destruct pre as [|a pre]; [|apply ST; discriminate].
        assert (f' = opened d) as -> by (symmetry; apply (FU []); [constructor|reflexivity]). reflexivity.
      * lia.
      * rewrite D at 1. unfold len. rewrite Nat2Z.id, skipn_app, skipn_all, Nat.sub_diag. reflexivity.
      * congruence.
    + destruct (step_hdu m d f' (len (file_bytes pre)) k s vs x (s_data s ++ s_dpad s ++ file_bytes post) p)
        as (h & f'' & N & RF & _); auto.
      * rewrite K2. destruct pre as [|a pre]; [|apply ST; discriminate].
        assert (f' = opened d) as -> by (symmetry; apply (FU []); [constructor|reflexivity]). reflexivity.
      * lia.
      * rewrite D at 1. unfold len. rewrite Nat2Z.id, skipn_app, skipn_all, Nat.sub_diag. reflexivity.
      * inversion Y0; subst. rewrite N in N0. injection N0 as <- <-.
        exists l', h, (moved f' p). split; auto.
        destruct RD as (_ & RD & Q & RP). cbn [moved f_reader rd_data rd_pos]. split; auto.
        split; [destruct L0 as [->|(S0 & L0)]; destruct RP as [(S1 & RP)|(S1 & RP)]; try congruence; lia|].
        split; auto. split; auto.
        destruct RF as (_ & _ & _ & _ & HO & _). rewrite HO. unfold hdu_bytes in LD. rewrite !len_app in LD. split; [lia|].
        unfold slice. rewrite D. rewrite app_assoc.
        replace (Z.to_nat (len (file_bytes pre) + len (header_bytes s))) with (length (file_bytes pre ++ header_bytes s))
          by (rewrite app_length; unfold len; lia).
        rewrite skipn_app, skipn_all, Nat.sub_diag. cbn [skipn app].
        replace (Z.to_nat (len (s_data s))) with (length (s_data s)) by (unfold len; lia).
        rewrite firstn_app, firstn_all, Nat.sub_diag. cbn [firstn]. apply app_nil_r.
Qed.

Lemma app_same_len (a b c e : list Z) : length a = length c -> a ++ b = c ++ e -> a = c /\ b = e.
Proof.
  revert c. induction a as [|x a IH]; intros [|y c] L E; try discriminate; auto.
  injection L as L. injection E as -> E. destruct (IH c L E) as (-> & ->). auto.
Qed.

Lemma concat_encode_inj b l1 l2 : Forall (in_range b) l1 -> Forall (in_range b) l2 -> length l1 = length l2 ->
  concat (map (encode b) l1) = concat (map (encode b) l2) -> l1 = l2.
Proof.
  intro F1. revert l2. induction F1 as [|v l1 V F1 IH]; intros [|w l2] F2 L E; try discriminate; auto.
  cbn [map concat] in E. inversion F2; subst.
  assert (LE : forall x, length (encode b x) = Z.to_nat (width b)).
  { intro x. unfold encode, be_bytes. now rewrite map_length, seq_length. }
  apply app_same_len in E as (E1 & E2); [|now rewrite !LE].
  f_equal; [|apply IH; auto; injection L; auto].
  rewrite <- (decode_encode b v V), <- (decode_encode b w) by auto. now rewrite E1.
Qed.

Lemma accepted_image m k b axes pixels s : image_written k b axes pixels s -> accepted m (k, s).
Proof. intro W. destruct (image_well_formed m k b axes pixels s W) as (vs & H). exists vs, (XtImage (mk_image b axes)). exact H. Qed.

Lemma read_from_xt m k s vs x q h : well_formed m k s vs x -> read_from m k q s h -> h_xt h = x /\ h_values h = vs.
Proof.
  intros (_ & _ & _ & _ & c & cards & F & Op & PC & X & _) (_ & (cards' & E & F') & PC' & X' & _).
  assert (cards' = c :: cards) as ->.
  { clear -F F'. revert F'. generalize (c :: cards) F. clear. intros l F. revert cards'.
    induction F as [|r c l1 l2 R F IH]; intros cs F'; inversion F' as [|? c' ? cs' R' F'']; subst; auto.
    f_equal; [|now apply IH]. unfold reads_as in *.
    destruct R as [R|((e & R) & ->)], R' as [R'|((e' & R') & ->)]; congruence. }
  rewrite E in PC'. cbn [app] in PC'. rewrite PC in PC'. injection PC' as ->.
  rewrite X in X'. injection X' as ->. auto.
Qed.

Lemma image_read_back m d pre k s post b axes pixels l f :
  octets d -> file_kinds (pre ++ (k, s) :: post) -> Forall (accepted m) pre -> image_written k b axes pixels s ->
  d = file_bytes (pre ++ (k, s) :: post) -> len d < 2 ^ 63 ->
  yields m (opened d) l f -> length l = S (length pre) ->
  exists l' h id, l = l' ++ [IOk h] /\ h_kind h = k /\ h_xt h = XtImage (mk_image b axes) /\
    get_image m f (mk_image b axes) = Ok id /\
    image_raw_bytes m id = Ok (s_data s) /\
    forall ops, Forall op_ok ops -> fst (pixel_run m (id_pixels id) ops) = pixel_spec pixels 0 ops.
Proof.
  intros O K A W D B Y L.
  destruct (nth_hdu m d pre k s post l f) as (l' & h & f1 & EL & RD & RP & N & RF & HO & SL); auto.
  { apply Forall_app. split; auto. constructor; auto. eapply accepted_image; eauto. }
  destruct (image_well_formed m k b axes pixels s W) as (vs & WF).
  destruct (read_from_xt m k s vs _ _ h WF RF) as (X & _).
  destruct W as (_ & _ & NN & PP & LP & R & _ & DD).
  assert (PC : pixel_count (mk_image b axes) = len pixels) by (unfold pixel_count; cbn [im_naxisn]; auto).
  assert (LD : len (s_data s) = width b * len pixels) by (rewrite DD; apply concat_encode_len).
  destruct RF as (HK & _ & _ & _ & HOE & HSZ).
  assert (0 <= h_offset h).
  { rewrite HOE. pose proof (len_nonneg (file_bytes pre)). pose proof (len_nonneg (header_bytes s)). lia. }
  assert (SF : size_fits (mk_image b axes)).
  { split; cbn [im_naxisn im_bitpix]; auto. rewrite PC. lia. }
  destruct (pixels_random m d f1 h f (mk_image b axes) O B RD RP N X SF) as (id & values & G & LV & ST & RUN).
  { cbn [im_bitpix]. rewrite PC. lia. }
  cbn [im_bitpix] in ST. rewrite PC in LV.
  assert (values = pixels) as ->.
  { destruct ST as (_ & _ & RV & SV). apply (concat_encode_inj b); auto; [unfold len in LV; lia|].
    rewrite <- SV, <- DD, <- SL, LV, LD. reflexivity. }
  exists l', h, id. split; auto. split; auto. split; auto. split; auto. split.
  - destruct (raw_bytes_image m d f1 h f (mk_image b axes)) as (id' & n & G' & HS & RB); auto; [lia|].
    rewrite G in G'. injection G' as <-.
    assert (n = len (s_data s)) as -> by congruence. rewrite RB, SL.
    replace (h_offset h + len (s_data s) <=? len d) with true by lia. reflexivity.
  - intros ops OK. apply RUN. exact OK.
Qed.

(** ** A file of images *)

Lemma images_listed m d hs (ims : list picture) :
  octets d -> file_kinds hs ->
  Forall2 (fun (p : picture) ks => image_written (fst ks) (fst (fst p)) (snd (fst p)) (snd p) (snd ks)) ims hs ->
  d = file_bytes hs -> len d < 2 ^ 63 ->
  exists full, Forall2 (fun (p : picture) i => exists h, i = IOk h /\ h_xt h = XtImage (mk_image (fst (fst p)) (snd (fst p)))) ims full /\
    (exists f, yields m (opened d) (full ++ [INone]) f) /\
    forall l f, yields m (opened d) l f -> (length l <= length hs + 1)%nat -> l = firstn (length l) (full ++ [INone]).
Proof.
  intros O K W D B.
  assert (A : Forall (accepted m) hs).
  { clear -W. induction W as [|p (k, s) ims hs W F IH]; constructor; auto. eapply accepted_image; exact W. }
  destruct (whole_file_items m d hs O K A D B) as (full & I & E & U). exists full. split; auto.
  clear -W I. revert I. generalize 0 full. induction W as [|((b, axes), pixels) (k, s) ims hs W F IH]; intros q full0 I; inversion I; subst.
  - constructor.
  - constructor; [|eapply IH; eauto]. cbn [fst snd] in *. eexists. split; [reflexivity|].
    destruct (image_well_formed m _ _ _ _ _ W) as (vs & WF). eapply read_from_xt; eauto.
Qed.

(** ** The writer *)

Lemma decimal_digits_spec n : 0 <= n ->
  Forall digit (decimal_digits n) /\ decimal_digits n <> [] /\ dec_value (decimal_digits n) = n /\
  (decimal_digits n = [0] \/ exists d r, decimal_digits n = d :: r /\ d <> 0).
Proof.
  intro N. destruct (dec_decimal n N) as (ds & E & F & NE & V & Z0).
  assert (decimal_digits n = ds) as ->; auto. unfold decimal_digits. rewrite E. unfold digit_chars. rewrite map_map.
  rewrite <- (map_id ds) at 2. apply map_ext. intro. lia.
Qed.

Lemma padded_last n t c : c <> 32 -> canonical_string (padded n (t ++ [c])) = t ++ [c].
Proof.
  intro C. unfold canonical_string, padded.
  assert (E : rtrim ((t ++ [c]) ++ blanks (n - length (t ++ [c]))) = t ++ [c]).
  { rewrite rtrim_blanks. now apply rtrim_last. }
  destruct ((t ++ [c]) ++ blanks (n - length (t ++ [c]))) as [|x l] eqn:EL.
  - destruct t; discriminate.
  - rewrite E. destruct (t ++ [c]) eqn:X; [destruct t; discriminate|reflexivity].
Qed.

Lemma record_written kw v : sayable v -> written kw v (record_of kw v).
Proof.
  intro S. destruct v as [n|s|b]; cbn [sayable] in S; unfold record_of.
  - destruct (decimal_digits_spec (Z.abs n)) as (F & NE & V & LZ); [lia|].
    set (sg := if n <? 0 then Minus else NoSign) in *.
    assert (E : apply_sign sg (dec_value (decimal_digits (Z.abs n))) = n).
    { rewrite V. unfold apply_sign, sg. destruct (n <? 0) eqn:L; cbn [is_neg]; lia. }
    cbv zeta. rewrite <- E at 1. apply written_int; auto; [now rewrite E|exact Logic.I|].
    pose proof (digits_length _ 19 F LZ ltac:(lia) ltac:(lia)) as DL.
    unfold value_field. rewrite !app_length. unfold blanks. rewrite !repeat_length. cbn [length].
    assert (length (int_literal sg (decimal_digits (Z.abs n))) <= 20)%nat; [|lia].
    unfold int_literal. rewrite app_length. unfold digit_chars. rewrite map_length. unfold len in DL.
    assert (length (sign_chars sg) <= 1)%nat by (unfold sg; destruct (n <? 0); cbn; lia). lia.
  - destruct S as (P & (t & c & -> & C) & L).
    pose proof (padded_last 8 t c C) as E. rewrite <- E at 1. apply written_text; [| |].
    + unfold padded. apply Forall_app. split; auto. apply Forall_forall. intros x I. apply repeat_spec in I. subst. unfold printable. lia.
    + exact Logic.I.
    + unfold value_field, fits_string, blanks. rewrite !app_length. cbn [repeat length]. rewrite app_length. cbn [length]. lia.
  - apply written_logical; [exact Logic.I|]. destruct b; cbn; lia.
Qed.

Lemma in_blocks_le n : 0 <= n -> n <= in_blocks n.
Proof. unfold in_blocks. intro. pose proof (Z.div_mod (n + 2879) 2880 ltac:(lia)). pose proof (Z.mod_pos_bound (n + 2879) 2880 ltac:(lia)). lia. Qed.

Lemma fill_len n (c : Z) : 0 <= n -> len (fill n c) = in_blocks n - n.
Proof. intro N. pose proof (in_blocks_le n N). unfold fill, len. rewrite repeat_length. lia. Qed.

Lemma records_len (rs : list (list Z)) : Forall (fun r => length r = 80%nat) rs -> len (concat rs) = 80 * len rs.
Proof.
  induction 1 as [|r rs H F IH]; [reflexivity|]. cbn [concat]. rewrite len_app, len_cons, IH.
  assert (len r = 80) by (unfold len; lia). lia.
Qed.

Lemma opening_written k : opening k (head_record k).
Proof.
  destruct k; cbn [opening head_record]; apply record_written; cbn [sayable]; auto;
    (split; [apply printableb; reflexivity|split; [|vm_compute; lia]]).
  - exists (chars "IMAG"), 69. split; [reflexivity|lia].
  - exists (chars "BINTABL"), 69. split; [reflexivity|lia].
  - exists (chars "TABL"), 69. split; [reflexivity|lia].
Qed.

Lemma unit_written k es ns data :
  Forall (fun e => sayable (snd e)) es -> Forall (fun e => (length (fst e) <= 8)%nat) es ->
  unit_of k es ns (write_unit k es data).
Proof.
  intros S L. set (rs := map (fun e => record_of (fst e) (snd e)) es).
  assert (LR : Forall (fun r => length r = 80%nat) (head_record k :: rs)).
  { constructor.
    - pose proof (opening_written k) as O. destruct k; cbn [opening] in O; (eapply written_length; [|exact O]; cbn; lia).
    - unfold rs. apply Forall_map. rewrite Forall_forall in *. intros e I.
      eapply written_length; [apply L, I|apply record_written, S, I]. }
  split; [|split; [|split]].
  - exists (head_record k), rs. split; [reflexivity|]. split; [apply opening_written|].
    assert (G : forall ns', header_of ns' es rs); [|apply G].
    intro ns'. unfold rs. clear -S. induction S as [|(kw, v) es S F IH]; cbn [map]; constructor; auto.
    cbn [fst snd]. now apply record_written.
  - split; [reflexivity|]. apply (record_end (padded 80 (chars "END"))). vm_compute. reflexivity.
  - unfold header_bytes, write_unit. cbn [s_records s_end s_hpad]. fold rs. rewrite !len_app, records_len by auto.
    rewrite fill_len; [|pose proof (len_nonneg (head_record k :: rs)); lia].
    change (len (padded 80 (chars "END"))) with 80. lia.
  - unfold write_unit. cbn [s_data s_dpad]. rewrite len_app, fill_len by apply len_nonneg. lia.
Qed.

Lemma written_image k p : k = HPrimary \/ k = HImage -> picture_ok p ->
  image_written k (fst (fst p)) (snd (fst p)) (snd p) (write_image k p).
Proof.
  destruct p as ((b, axes), pixels). cbn [fst snd picture_ok write_image]. intros K (L & A & P & LP & R).
  split; auto. split; auto. split; [eapply Forall_impl; [|exact A]; cbn; lia|]. split; auto. split; auto. split; auto.
  split; [|reflexivity]. pose proof (image_entries_proper k b axes L) as (OK & _).
  apply unit_written.
  - assert (LB : - 2 ^ 63 <= bitpix_code b < 2 ^ 63) by (destruct b; cbn; lia).
    pose proof (len_nonneg axes).
    constructor; [exact LB|]. constructor; [cbn; lia|]. apply Forall_app. split.
    + apply Forall_forall. intros e I. apply axis_names in I as (j & a & J & -> & IA); [|lia].
      rewrite Forall_forall in A. specialize (A a IA). cbn. lia.
    + destruct k; repeat constructor; cbn; lia.
  - eapply Forall_impl; [|exact OK]. intros e (Le & _). lia.
Qed.

Lemma written_kinds p ps : file_kinds (write_images p ps).
Proof. split; [reflexivity|]. apply Forall_map, Forall_forall. intros. discriminate. Qed.

Lemma written_pictures p ps : picture_ok p -> Forall picture_ok ps ->
  Forall2 (fun (p : picture) ks => image_written (fst ks) (fst (fst p)) (snd (fst p)) (snd p) (snd ks)) (p :: ps) (write_images p ps).
Proof.
  intros P F. constructor; [apply written_image; auto|]. clear P. induction F as [|q ps Q F IH]; cbn [map]; constructor; auto.
  apply written_image; auto.
Qed.

Lemma unit_octets k es data : Forall (fun e => ordinary_keyword (fst e)) es -> Forall (fun e => sayable (snd e)) es ->
  octets data -> octets (hdu_bytes (write_unit k es data)).
Proof.
  intros OK S D.
  assert (R : forall n c, 0 <= c <= 255 -> octets (repeat c n)).
  { intros n c C. apply Forall_forall. intros x I. apply repeat_spec in I. subst. lia. }
  unfold hdu_bytes, header_bytes, write_unit. cbn [s_records s_end s_hpad s_data s_dpad].
  apply Forall_app. split; [apply Forall_app; split; [|apply Forall_app; split; [|apply R; lia]]|
                            apply Forall_app; split; [exact D|apply R; lia]].
  - apply Forall_concat. constructor; [apply (opening_ok k _ (opening_written k))|].
    apply Forall_map. rewrite Forall_forall in *. intros e I.
    destruct (written_record (fst e) (snd e) _ (OK e I) (record_written _ _ (S e I))) as (_ & O & _). exact O.
  - apply octetsb_ok. vm_compute. reflexivity.
Qed.

Lemma encode_octets b l : Forall (in_range b) l -> octets (concat (map (encode b) l)).
Proof.
  intros _. apply Forall_concat, Forall_map, Forall_forall. intros v _. apply Forall_forall. intros x I.
  unfold encode, be_bytes in I. apply in_map_iff in I as (i & <- & _).
  match goal with |- context [?a mod 256] => pose proof (Z.mod_pos_bound a 256 ltac:(lia)) end. lia.
Qed.

Lemma image_octets k p : k = HPrimary \/ k = HImage -> picture_ok p -> octets (hdu_bytes (write_image k p)).
Proof.
  intros K Q. pose proof (written_image k p K Q) as W. destruct p as ((b, axes), pixels). cbn [write_image fst snd] in *.
  destruct Q as (L & A & _ & _ & R). pose proof (len_nonneg axes).
  apply unit_octets; [apply (image_entries_proper k b axes L)| |now apply encode_octets].
  assert (LB : - 2 ^ 63 <= bitpix_code b < 2 ^ 63) by (destruct b; cbn; lia).
  constructor; [exact LB|]. constructor; [cbn; lia|]. apply Forall_app. split.
  - apply Forall_forall. intros e I. apply axis_names in I as (j & a & J & -> & IA); [|lia].
    rewrite Forall_forall in A. specialize (A a IA). cbn. lia.
  - destruct k; repeat constructor; cbn; lia.
Qed.

Lemma written_octets p ps : picture_ok p -> Forall picture_ok ps -> octets (file_bytes (write_images p ps)).
Proof.
  intros P F. unfold file_bytes. apply Forall_concat. cbn [write_images map]. constructor; [apply image_octets; auto|].
  rewrite map_map. apply Forall_map. eapply Forall_impl; [|exact F]. intros q Q. apply image_octets; auto.
Qed.

(** A list of pictures, written and read back. *)
Lemma images_round_trip m p ps :
  picture_ok p -> Forall picture_ok ps -> let d := file_bytes (write_images p ps) in len d < 2 ^ 63 ->
  exists full, Forall2 (fun (p : picture) i => exists h, i = IOk h /\ h_xt h = XtImage (mk_image (fst (fst p)) (snd (fst p)))) (p :: ps) full /\
    (exists f, yields m (opened d) (full ++ [INone]) f) /\
    (forall l f, yields m (opened d) l f -> (length l <= length full + 1)%nat -> l = firstn (length l) (full ++ [INone])) /\
    forall l f n q, yields m (opened d) l f -> length l = S n -> nth_error (p :: ps) n = Some q ->
      exists id, get_image m f (mk_image (fst (fst q)) (snd (fst q))) = Ok id /\
        image_raw_bytes m id = Ok (concat (map (encode (fst (fst q))) (snd q))) /\
        forall ops, Forall op_ok ops -> fst (pixel_run m (id_pixels id) ops) = pixel_spec (snd q) 0 ops.
Proof.
  intros P F d B. pose proof (written_octets p ps P F) as O. pose proof (written_kinds p ps) as K.
  pose proof (written_pictures p ps P F) as W.
  destruct (images_listed m d (write_images p ps) (p :: ps) O K W eq_refl B) as (full & I & E & U).
  exists full. split; auto. split; auto. split.
  { intros l f Y L. apply (U l f Y). rewrite <- (Forall2_length _ _ _ W), (Forall2_length _ _ _ I). exact L. }
  intros l f n q Y L N.
  assert (NW : forall (R : picture -> hkind * source -> Prop) l1 l2, Forall2 R l1 l2 -> forall i x, nth_error l1 i = Some x ->
             exists y, nth_error l2 i = Some y /\ R x y).
  { induction 1 as [|a b l1 l2 H F2 IH]; intros [|i] x Ex; try discriminate.
    - injection Ex as <-. exists b. auto.
    - apply IH. exact Ex. }
  destruct (NW _ _ _ W n q N) as ((k, s) & NS & WS). cbn [fst snd] in WS.
  destruct (nth_error_split _ _ NS) as (pre & post & EQ & LP).
  assert (A : Forall (accepted m) pre).
  { assert (A : Forall (accepted m) (write_images p ps)).
    { clear -W. induction W as [|x (k, s) ims hs W F IH]; constructor; auto. eapply accepted_image; exact W. }
    rewrite EQ in A. apply Forall_app in A. tauto. }
  assert (WS' := WS). destruct WS as (_ & _ & _ & _ & _ & _ & _ & DS).
  destruct (image_read_back m d pre k s post _ _ _ l f O ltac:(rewrite <- EQ; exact K) A WS') as (l' & h & id & _ & _ & _ & G & R & RUN);
    auto; [unfold d; now rewrite EQ|lia|].
  exists id. rewrite <- DS. auto.
Qed.
