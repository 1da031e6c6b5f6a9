(** Properties C22, C23: the streaming reader for SPARQL JSON results. *)
From Coq Require Import String List Arith NArith ZArith Bool Lia.
Import ListNotations.
From Verif Require Import Utf8Model FrameModel ReaderModel ReaderSpec ReaderProofs.
Local Open Scope nat_scope.

Section Props.
Context {header binding meta : Type}.
Variables (header_of : list byte -> option header) (binding_of : list byte -> option binding)
          (meta_of : list byte -> option meta).
Notation read := (@read header binding meta header_of binding_of meta_of).
Notation server_read := (@server_read header binding meta header_of binding_of meta_of).
Notation feed := (@feed header binding meta header_of binding_of meta_of).
Notation partial := (partial header binding meta).

Lemma parse_all_forall os xs : Forall2 (fun o x => binding_of o = Some x) os xs -> parse_all binding_of os = Some xs.
Proof. induction 1 as [|o x os xs H _ IH]; [reflexivity|]. cbn. now rewrite H, IH. Qed.

(** a document is read completely: the header, the requested bindings in order, in batches, the meta
    data; the count is the number of all bindings *)
Lemma read_document D h xs ms chunks batch limit offset :
  well_formed D -> concat chunks = text_of_document D ->
  window_assert batch limit offset = true ->
  header_of (doc_key D ++ doc_head D ++ [125%N]) = Some h ->
  Forall2 (fun o x => binding_of o = Some x) (window limit offset (doc_objects D)) xs ->
  match doc_meta D with None => ms = [] | Some m => exists x, meta_of m = Some x /\ ms = [Meta x] end ->
  exists full last,
    read chunks batch limit offset =
      ReadOk (Header h :: map Bindings full ++ ms ++ match last with [] => [] | _ => [Bindings last] end)
             (length (doc_objects D)) /\
    batches batch [] xs = (full, last).
Proof.
  intros W C A Hh Hx Hm. unfold ReaderModel.read. rewrite A, feed_chunks_concat, C. unfold text_of_document.
  rewrite app_assoc, feed_app.
  rewrite (head_feed header_of binding_of meta_of (new_reader batch limit offset) _ _ h (wf_key _ W) (wf_head _ W) eq_refl eq_refl Hh).
  rewrite feed_app. erewrite (feed_ignored header_of binding_of meta_of SearchingBindings (doc_between D)) by (try apply (wf_between _ W); reflexivity).
  rewrite feed_app. cbn [ReaderModel.feed].
  set (r0 := set_state SearchingBindings (set_input (doc_key D ++ doc_head D ++ [125%N]) (new_reader batch limit offset))).
  assert (R : @read_byte header binding meta header_of binding_of meta_of 91%N r0 = Some (None, set_state SearchingBinding (set_input [] r0))) by reflexivity.
  rewrite R. clear R. rewrite feed_app.
  set (r1 := set_state SearchingBinding (set_input [] r0)).
  destruct (feed_objects header_of binding_of meta_of 255 _ _ (wf_list _ W) (Nat.le_refl _) r1 xs eq_refl) as (buf & F).
  { cbn [r1 set_state set_input r_limit r_offset r_count r0 new_reader]. rewrite requested_window. now apply parse_all_forall. }
  rewrite F. clear F. cbn [r1 set_state set_input r_batch r_buffer r_count r0 new_reader].
  destruct (batches batch [] xs) as [full last] eqn:B. cbn [fst snd]. exists full, last. split; [|reflexivity].
  rewrite feed_app. cbn [ReaderModel.feed].
  match goal with |- context [@read_byte _ _ _ _ _ _ 93%N ?r] => set (r2 := r) end.
  assert (R : @read_byte header binding meta header_of binding_of meta_of 93%N r2 = Some (None, set_state SearchingMeta r2)) by reflexivity.
  rewrite R. clear R. rewrite feed_app.
  erewrite (feed_ignored header_of binding_of meta_of SearchingMeta (doc_after D)) by (try apply (wf_after _ W); reflexivity).
  destruct (doc_meta D) as [m|] eqn:Em.
  - destruct Hm as (x & Hx' & ->). destruct (wf_meta _ W m Em) as (t & Ht & ->).
    rewrite feed_app.
    assert (M : feed (123%N :: t ++ [125%N]) (set_state SearchingMeta r2) =
                ([Meta x], Some (set_state ReaderDone (set_input (123%N :: t ++ [125%N]) r2)))).
    { cbn [ReaderModel.feed]. change (@read_byte header binding meta header_of binding_of meta_of 123%N (set_state SearchingMeta r2))
        with (Some (None : option partial, set_state ReadingMeta (set_input [123%N] (set_state SearchingMeta r2)))). cbv iota beta.
      assert (G : forall w i, Forall (fun b => b <> 125%N) w ->
        feed w (set_state ReadingMeta (set_input i (set_state SearchingMeta r2))) =
        ([], Some (set_state ReadingMeta (set_input (i ++ w) (set_state SearchingMeta r2))))).
      { induction w as [|b w IH]; intros i Hw; [rewrite app_nil_r; reflexivity|]. inversion Hw; subst. cbn [ReaderModel.feed].
        assert (R : @read_byte header binding meta header_of binding_of meta_of b (set_state ReadingMeta (set_input i (set_state SearchingMeta r2)))
          = Some (None, set_state ReadingMeta (set_input (i ++ [b]) (set_state SearchingMeta r2)))).
        { unfold read_byte, store_char. cbn [set_state set_input r_state]. unfold RBRACE. rewrite eqb_ne by assumption. reflexivity. }
        rewrite R, IH by assumption. rewrite <- app_assoc. reflexivity. }
      rewrite feed_app, G by assumption. cbn [ReaderModel.feed].
      unfold read_byte, store_char. cbn [set_state set_input r_state r_input]. rewrite N.eqb_refl.
      change (([123%N] ++ t) ++ [125%N]) with (123%N :: t ++ [125%N]). rewrite Hx'. reflexivity. }
    rewrite M. erewrite (feed_ignored header_of binding_of meta_of ReaderDone (doc_end D)).
    2:{ apply Forall_forall. intros; exact I. } 2: reflexivity.
    cbn [r2 set_state set_input set_count set_buffer r_buffer r_count flush]. cbn [Nat.add].
    f_equal. unfold flush; cbn [r2 set_state set_input set_count set_buffer r_buffer]. cbn [app]. rewrite <- !app_assoc. cbn [app]. destruct last; reflexivity.
  - subst ms. cbn [app].
    erewrite (feed_ignored header_of binding_of meta_of SearchingMeta (doc_end D)) by (try apply (wf_end _ W Em); reflexivity).
    unfold flush; cbn [r2 set_state set_input set_count set_buffer r_buffer r_count]. cbn [Nat.add].
    f_equal. cbn [app]. rewrite app_nil_r. destruct last; reflexivity.
Qed.

(** ** C22 *)
Theorem C22_document_delivered : forall D h xs ms chunks batch limit offset,
  well_formed D -> concat chunks = text_of_document D ->
  window_assert batch limit offset = true ->
  header_of (doc_key D ++ doc_head D ++ [125%N]) = Some h ->
  Forall2 (fun o x => binding_of o = Some x) (window limit offset (doc_objects D)) xs ->
  match doc_meta D with None => ms = [] | Some m => exists x, meta_of m = Some x /\ ms = [Meta x] end ->
  exists full last,
    read chunks batch limit offset =
      ReadOk (Header h :: map Bindings full ++ ms ++ match last with [] => [] | _ => [Bindings last] end)
             (length (doc_objects D)) /\
    concat full ++ last = xs /\
    (0 < batch -> Forall (fun b => length b = batch) full /\ length last < batch).
Proof.
  intros D h xs ms chunks batch limit offset W C A Hh Hx Hm.
  destruct (read_document D h xs ms chunks batch limit offset W C A Hh Hx Hm) as (full & last & R & B).
  exists full, last. split; [exact R|]. destruct (batches_spec _ _ _ _ _ B) as (C1 & C2 & _). split; [exact C1|].
  intros Hb. apply C2; [exact Hb|cbn; lia].
Qed.

(** how the bytes are cut into chunks is irrelevant, whatever they are *)
Theorem C22_chunking_irrelevant : forall chunks chunks' batch limit offset, concat chunks = concat chunks' ->
  read chunks batch limit offset = read chunks' batch limit offset.
Proof. intros. unfold ReaderModel.read. now rewrite !feed_chunks_concat, H. Qed.

(** for every byte stream, well formed or not: never more bindings than requested, and exactly as
    many as the count says *)
Definition delivered (calls : list partial) : list binding :=
  flat_map (fun p => match p with Bindings bs => bs | _ => [] end) calls.
Lemma read_byte_count b (r r' : reader binding) o : read_byte header_of binding_of meta_of b r = Some (o, r') ->
  r_limit r' = r_limit r /\ r_offset r' = r_offset r /\
  length (delivered (match o with Some p => [p] | None => [] end)) + length (r_buffer r') + length (window (r_limit r) (r_offset r) (repeat tt (r_count r)))
  = length (r_buffer r) + length (window (r_limit r) (r_offset r) (repeat tt (r_count r'))).
Proof.
  assert (W : forall n, length (window (r_limit r) (r_offset r) (repeat tt n)) = match r_limit r with Some l => Nat.min l (n - r_offset r) | None => n - r_offset r end).
  { intros n. unfold window. destruct (r_limit r); rewrite ?firstn_length, skipn_length, repeat_length; reflexivity. }
  rewrite !W. unfold read_byte. intros H.
  assert (S : exists i, (if store_char r then set_input (r_input r ++ [b]) r else r) = set_input i r) by (destruct (store_char r); [eexists; reflexivity|exists (r_input r); destruct r; reflexivity]).
  destruct S as [i ->] in H. cbn [set_input r_state] in H.
  destruct (r_state r); cbn [set_input r_input] in H;
    repeat match type of H with
    | (if ?c then _ else _) = _ => destruct c eqn:?
    | match ?c with Some _ => _ | None => _ end = _ => destruct c eqn:?
    end; try discriminate H; injection H as <- <-; cbn [set_state set_input set_buffer set_count r_state r_input r_batch r_buffer r_count r_limit r_offset delivered flat_map app length none_or] in *;
    rewrite ?app_length; cbn [length]; (split; [reflexivity|]); (split; [reflexivity|]).
  all: cbn [set_state set_input set_buffer set_count r_state r_input r_batch r_buffer r_count r_limit r_offset delivered flat_map app length none_or] in *; rewrite ?app_length, ?app_nil_r in *; cbn [length] in *.
  all: try (destruct (r_limit r); lia).
  all: repeat match goal with
    | K : (_ && _) = true |- _ => apply andb_prop in K as [? ?]
    | K : (_ && _) = false |- _ => apply andb_false_iff in K
    | K : (_ <? _) = true |- _ => apply Nat.ltb_lt in K
    end.
  - destruct (r_limit r) as [l|]; cbn [none_or] in *; [|lia]. match goal with K : (_ <=? _) = true |- _ => apply Nat.leb_le in K end. lia.
  - destruct (r_limit r) as [l|]; cbn [none_or] in *; [|lia]. match goal with K : (_ <=? _) = true |- _ => apply Nat.leb_le in K end. lia.
  - match goal with K : _ \/ _ |- _ => rename K into KK end. destruct KK as [K|K].
    + apply Nat.ltb_ge in K. destruct (r_limit r); cbn [none_or]; lia.
    + destruct (r_limit r) as [l|]; cbn [none_or] in *; [|discriminate]. apply Nat.leb_gt in K. lia.
Qed.
Lemma feed_count bs : forall (r r' : reader binding) ps, feed bs r = (ps, Some r') ->
  r_limit r' = r_limit r /\ r_offset r' = r_offset r /\
  length (delivered ps) + length (r_buffer r') + length (window (r_limit r) (r_offset r) (repeat tt (r_count r)))
  = length (r_buffer r) + length (window (r_limit r) (r_offset r) (repeat tt (r_count r'))).
Proof.
  induction bs as [|b bs IH]; intros r r' ps H; cbn [ReaderModel.feed] in H.
  - injection H as <- <-. split; [reflexivity|]. split; [reflexivity|]. cbn [delivered flat_map length]. lia.
  - destruct (read_byte _ _ _ b r) as [[o r1]|] eqn:R; [|discriminate].
    destruct (feed bs r1) as [qs e] eqn:F. assert (e = Some r') by (destruct o; congruence). subst e.
    destruct (read_byte_count _ _ _ _ R) as (L & O & Q). destruct (IH _ _ _ F) as (L' & O' & Q').
    rewrite L, O in *. split; [congruence|]. split; [congruence|].
    assert (D : length (delivered ps) = length (delivered (match o with Some p => [p] | None => [] end)) + length (delivered qs)).
    { destruct o; injection H as <-; unfold delivered; cbn [flat_map]; rewrite ?app_nil_r, ?app_length; reflexivity. }
    lia.
Qed.
Theorem C22_count_delivered : forall chunks batch limit offset calls n,
  read chunks batch limit offset = ReadOk calls n ->
  length (delivered calls) = match limit with Some l => Nat.min l (n - offset) | None => n - offset end.
Proof.
  intros chunks batch limit offset calls n H. unfold ReaderModel.read in H. destruct (window_assert _ _ _); [|discriminate].
  rewrite feed_chunks_concat in H. destruct (feed _ _) as [ps [r|]] eqn:F; [|discriminate]. injection H as <- <-.
  destruct (feed_count _ _ _ _ F) as (L & O & Q). cbn [new_reader r_limit r_offset r_count r_buffer length] in *.
  assert (W : forall n, length (window limit offset (repeat tt n)) = match limit with Some l => Nat.min l (n - offset) | None => n - offset end).
  { intros n. unfold window. destruct limit; rewrite ?firstn_length, skipn_length, repeat_length; reflexivity. }
  rewrite !W in Q. unfold delivered in *. rewrite flat_map_app, app_length.
  assert (D : length (flat_map (fun p : partial => match p with Bindings bs => bs | _ => [] end) (flush r)) = length (r_buffer r)).
  { unfold flush. destruct (r_buffer r); cbn; rewrite ?app_nil_r; reflexivity. }
  rewrite D. destruct limit; lia.
Qed.

(** the header comes first and once, the meta data at most once; also when the stream is cut short or
    reading fails *)
Definition is_header (p : partial) : bool := match p with Header _ => true | _ => false end.
Definition is_meta (p : partial) : bool := match p with Meta _ => true | _ => false end.
Fixpoint phase (s : scan) : nat :=
  match s with
  | ReadingHead => 0
  | SearchingBindings | SearchingBinding | ReadingBinding _ => 1
  | SearchingMeta | ReadingMeta => 2
  | ReaderDone => 3
  | ReadingString p | ReadingStringEscaped p => phase p
  end.
Lemma read_byte_phase b (r r' : reader binding) o : read_byte header_of binding_of meta_of b r = Some (o, r') ->
  match o with
  | Some (Header _) => phase (r_state r) = 0 /\ phase (r_state r') = 1
  | Some (Meta _) => phase (r_state r) = 2 /\ phase (r_state r') = 3
  | Some (Bindings _) => phase (r_state r) = 1 /\ phase (r_state r') = 1
  | None => phase (r_state r) = phase (r_state r') \/ (phase (r_state r) = 1 /\ phase (r_state r') = 2)
  end.
Proof.
  unfold read_byte. intros H.
  assert (S : exists i, (if store_char r then set_input (r_input r ++ [b]) r else r) = set_input i r) by (destruct (store_char r); [eexists; reflexivity|exists (r_input r); destruct r; reflexivity]).
  destruct S as [i ->] in H. cbn [set_input r_state] in H.
  destruct (r_state r) eqn:E; cbn [set_input r_input] in H;
    repeat match type of H with
    | (if ?c then _ else _) = _ => destruct c eqn:?
    | match ?c with Some _ => _ | None => _ end = _ => destruct c eqn:?
    end; try discriminate H; injection H as <- <-; cbn; rewrite ?E; cbn; auto.
Qed.
Lemma feed_phase bs : forall (r : reader binding),
  let ps := fst (feed bs r) in
  match phase (r_state r) with
  | 0 => ps = [] \/ exists h rest, ps = Header h :: rest /\ existsb is_header rest = false /\ length (filter is_meta rest) <= 1
  | S (S (S _)) => ps = []
  | _ => existsb is_header ps = false /\ length (filter is_meta ps) <= 1
  end.
Proof.
  induction bs as [|b bs IH]; intros r; cbn [ReaderModel.feed fst].
  - destruct (phase (r_state r)) as [|[|[|]]]; auto.
  - destruct (read_byte _ _ _ b r) as [[o r1]|] eqn:R.
    2:{ cbn. destruct (phase (r_state r)) as [|[|[|]]]; auto. }
    specialize (IH r1). cbv zeta in IH |- *. apply read_byte_phase in R. destruct (feed bs r1) as [qs e]. cbn [fst] in *.
    destruct o as [[h|xs|m]|]; cbn [fst].
    + destruct R as [-> E]. rewrite E in IH. right. exists h, qs. auto.
    + destruct R as [-> E]. rewrite E in IH. exact IH.
    + destruct R as [-> E]. rewrite E in IH. subst qs. cbn. auto.
    + destruct R as [->|[-> E]]; [exact IH|]. rewrite E in IH. exact IH.
Qed.
Lemma feed_no_header bs : forall (r r' : reader binding), phase (r_state r) = 0 -> r_buffer r = [] ->
  feed bs r = ([], Some r') -> r_buffer r' = [].
Proof.
  induction bs as [|b bs IH]; intros q q' Hp Hb Hf; cbn [ReaderModel.feed] in Hf; [injection Hf as <-; exact Hb|].
  destruct (read_byte _ _ _ b q) as [[o q1]|] eqn:R; [|discriminate]. destruct (feed bs q1) as [qs e] eqn:F1.
  destruct o; [discriminate|]. assert (e = Some q') by congruence. subst e. assert (qs = []) by congruence. subst qs.
  pose proof (read_byte_phase _ _ _ _ R) as P1. cbn in P1.
  apply (IH q1 q'); [destruct P1; lia| |exact F1].
  revert R. unfold read_byte.
  assert (Sx : exists i, (if store_char q then set_input (r_input q ++ [b]) q else q) = set_input i q) by (destruct (store_char q); [eexists; reflexivity|exists (r_input q); destruct q; reflexivity]).
  destruct Sx as [i ->]. cbn [set_input r_state]. destruct (r_state q) eqn:E; try discriminate Hp; intros R;
  repeat match type of R with
  | (if ?c then _ else _) = _ => destruct c eqn:?
  | match ?c with Some _ => _ | None => _ end = _ => destruct c eqn:?
  end; try discriminate R; injection R; intros; subst; try exact Hb.
Qed.
Theorem C22_header_first : forall chunks batch limit offset,
  match read chunks batch limit offset with
  | ReadOk calls _ | ReadErr calls =>
    match calls with
    | [] => True
    | c :: rest => is_header c = true /\ existsb is_header rest = false /\ length (filter is_meta rest) <= 1
    end
  | ReadPanic => True
  end.
Proof.
  intros. unfold ReaderModel.read. destruct (window_assert _ _ _); [|exact I]. rewrite feed_chunks_concat.
  pose proof (feed_phase (concat chunks) (new_reader batch limit offset)) as P.
  pose proof (feed_no_header (concat chunks) (new_reader batch limit offset)) as Q.
  destruct (feed _ _) as [ps [r|]]; cbn [fst new_reader r_state phase] in P.
  - destruct P as [->|(h & rest & -> & H1 & H2)].
    + unfold flush. rewrite (Q r eq_refl eq_refl eq_refl). exact I.
    + cbn [app]. split; [reflexivity|]. rewrite existsb_app, filter_app, app_length, H1. unfold flush.
      destruct (r_buffer r); cbn; split; auto; lia.
  - destruct P as [->|(h & rest & -> & H1 & H2)]; [exact I|]. cbn. auto.
Qed.

(** ** C23: the content of strings is never mistaken for structure.  [feed] of a whole string leaves
    the reader where it was: same scanner state, same count, same waiting bindings, no callback *)
Theorem C23_strings_opaque : forall (r : reader binding) s,
  (r_state r = ReadingHead \/ exists d, 1 <= d <= 255 /\ r_state r = ReadingBinding d) -> string_body s ->
  exists r', feed (34%N :: s ++ [34%N]) r = ([], Some r') /\
    r_state r' = r_state r /\ r_count r' = r_count r /\ r_buffer r' = r_buffer r.
Proof.
  intros r s H Hs.
  assert (P : pass header_of binding_of meta_of (34%N :: s ++ [34%N]) (r_state r)).
  { apply (pass_string header_of binding_of meta_of _ _ 0).
    - destruct H as [->|(d & Hd & ->)]; [left; auto|right; exists d; split; [reflexivity|lia]].
    - exists s. auto. }
  destruct (P r eq_refl) as (buf & F & _). exists (set_input buf r). split; [exact F|]. repeat split.
Qed.
(** so where the bindings start and end depends on the structure only: whatever strings the objects
    contain, each object is read as one binding from exactly its own bytes *)
Theorem C23_object_is_one_binding : forall (r : reader binding) o d, json_object d o -> d <= 255 ->
  r_state r = SearchingBinding ->
  match feed o r with
  | (ps, None) => binding_of o = None /\ ps = []
  | (ps, Some r') => r_state r' = SearchingBinding /\ r_count r' = r_count r + 1 /\
      (delivered ps ++ r_buffer r' = r_buffer r \/ exists x, binding_of o = Some x /\ delivered ps ++ r_buffer r' = r_buffer r ++ [x])
  end.
Proof.
  intros r o d Ho Hd E. destruct (feed_object header_of binding_of meta_of o d Ho Hd r E) as (buf & ->).
  cbv zeta. destruct (wanted _ _ _).
  - destruct (binding_of o) as [x|]; [|auto]. destruct (_ =? _); cbn; rewrite E; (split; [reflexivity|]); (split; [reflexivity|]); right; exists x; rewrite ?app_nil_r; auto.
  - cbn. rewrite E. auto.
Qed.

(** how the server calls the reader: the first page is read as documented ... *)
Lemma min_assert l : (N.of_nat l < 4294967296)%N -> window_assert (Nat.min 1000 l) (Some l) 0 = true.
Proof.
  intros H. unfold window_assert, usize. change (N.of_nat 0) with 0%N.
  rewrite !(N.mod_small (N.of_nat _)) by lia. change (0 mod 4294967296)%N with 0%N. rewrite N.sub_0_r.
  replace (N.of_nat l + 4294967296)%N with (N.of_nat l + 1 * 4294967296)%N by lia.
  rewrite N.mod_add, N.mod_small by lia. apply N.leb_le. lia.
Qed.
Theorem C22_server_first_page : forall chunks limit, match limit with Some l => (N.of_nat l < 4294967296)%N | None => True end ->
  server_read chunks limit 0 <> ReadPanic.
Proof.
  intros chunks limit H. unfold ReaderModel.server_read, ReaderModel.read.
  assert (A : window_assert match limit with Some l => Nat.min 1000 l | None => 1000 end limit 0 = true).
  { destruct limit as [l|]; [now apply min_assert|reflexivity]. }
  rewrite A. destruct (feed_chunks _ _ _ _ _) as [? [?|]]; discriminate.
Qed.
(** ... but every later page of up to 1000 rows that starts before [limit] panics *)
Theorem C22_second_page_panics_refuted : forall chunks limit offset, 0 < offset <= limit -> limit <= 1000 ->
  server_read chunks (Some limit) offset = ReadPanic.
Proof.
  intros chunks limit offset H1 H2. unfold ReaderModel.server_read, ReaderModel.read.
  assert (A : window_assert (Nat.min 1000 limit) (Some limit) offset = false); [|now rewrite A].
  unfold window_assert, usize. rewrite Nat.min_r by lia. rewrite !(N.mod_small (N.of_nat _)) by lia.
  replace (N.of_nat limit + (4294967296 - N.of_nat offset))%N with (N.of_nat limit - N.of_nat offset + 1 * 4294967296)%N by lia.
  rewrite N.mod_add, N.mod_small by lia. apply N.leb_gt. lia.
Qed.
End Props.

(** outside the head and the bindings strings are not recognised: a "[]" in a string between head and
    results makes the first binding the meta data and the bindings are lost *)
Definition q (s : string) : list byte := [34%N] ++ bytes_of s ++ [34%N].
Definition lost_document : list byte :=
  bytes_of "{" ++ q "head" ++ bytes_of ":{" ++ q "vars" ++ bytes_of ":[]}," ++ q "comment" ++ bytes_of ":" ++ q "[]"
  ++ bytes_of "," ++ q "results" ++ bytes_of ":{" ++ q "bindings" ++ bytes_of ":[{},{}]}}".
Theorem C23_strings_between_refuted :
  json_object 3 lost_document /\
  read (fun _ => Some tt) (fun _ => Some tt) (fun _ => Some tt) [lost_document] 10 None 0 = ReadOk [Header tt; Meta tt] 0.
Proof.
  split; [|vm_compute; reflexivity].
  assert (S : forall s, forallb (fun b => negb (N.eqb b 34) && negb (N.eqb b 92)) (bytes_of s) = true -> json_string (q s)).
  { intros s H. exists (bytes_of s). split; [|reflexivity]. induction (bytes_of s) as [|b w IH]; [constructor|].
    cbn in H. apply andb_prop in H as [H1 H2]. apply andb_prop in H1 as [H1 H3].
    constructor; [intros ->; discriminate|intros ->; discriminate|auto]. }
  assert (W : ws []) by constructor.
  assert (A : json_value 2 [91%N; 93%N]) by (apply (jv_array 2 []); constructor; exact W).
  assert (O : forall d, json_value (Datatypes.S d) [123%N; 125%N]) by (intros d; apply (jv_object d []); constructor; exact W).
  exists (q "head" ++ [] ++ 58%N :: [] ++ (123%N :: (q "vars" ++ [] ++ 58%N :: [] ++ [91; 93]%N ++ []) ++ [125%N]) ++ [] ++ 44%N ::
     q "comment" ++ [] ++ 58%N :: [] ++ q "[]" ++ [] ++ 44%N ::
     q "results" ++ [] ++ 58%N :: [] ++ (123%N :: (q "bindings" ++ [] ++ 58%N :: [] ++ (91%N :: ([123; 125]%N ++ [] ++ 44%N :: [123; 125]%N ++ []) ++ [93%N]) ++ []) ++ [125%N]) ++ []), 2.
  split; [reflexivity|]. split; [|reflexivity].
  apply (jm_more 2 [] (q "head") [] [] _ []); try exact W; try (apply S; reflexivity).
  { apply (jv_object 1). apply (jm_last 1 [] (q "vars") [] [] _ []); try exact W; try (apply S; reflexivity). apply (jv_array 1 []). constructor; exact W. }
  apply (jm_more 2 [] (q "comment") [] [] _ []); try exact W; try (apply S; reflexivity).
  { apply jv_string, S. reflexivity. }
  apply (jm_last 2 [] (q "results") [] [] _ []); try exact W; try (apply S; reflexivity).
  apply (jv_object 1). apply (jm_last 1 [] (q "bindings") [] [] _ []); try exact W; try (apply S; reflexivity).
  apply (jv_array 1). apply (je_more 1 [] [123; 125]%N [] _); try exact W; try apply O.
  apply (je_last 1 [] [123; 125]%N []); try exact W; try apply O.
Qed.
(** a '}' in a string of the meta object cuts it short: serde is given an unfinished text *)
Theorem C23_strings_in_meta_refuted :
  let m := bytes_of "{" ++ q "x" ++ bytes_of ":" ++ q "}" ++ bytes_of "}" in
  forall (meta_of : list byte -> option unit),
  meta_of (bytes_of "{" ++ q "x" ++ bytes_of ":" ++ [34%N] ++ bytes_of "}") = None ->
  json_object 1 m /\ 
  read (fun _ => Some tt) (fun _ : list byte => Some tt) meta_of [bytes_of "{}[]" ++ m] 10 None 0 = ReadErr [Header tt].
Proof.
  intros m meta_of H. split.
  - exists (q "x" ++ [] ++ 58%N :: [] ++ q "}" ++ []), 0. split; [reflexivity|]. split; [|reflexivity].
    assert (S : forall c, c <> 34%N -> c <> 92%N -> json_string ([34%N] ++ [c] ++ [34%N])).
    { intros c H1 H2. exists [c]. split; [constructor; [assumption..|constructor]|reflexivity]. }
    apply (jm_last 0 [] (q "x") [] [] _ []); try constructor. { apply S; discriminate. } { apply S; discriminate. }
  - unfold read. cbn [window_assert feed_chunks]. 
    assert (F : feed (fun _ => Some tt) (fun _ : list byte => Some tt) meta_of (bytes_of "{}[]" ++ m) (new_reader 10 None 0) = ([Header tt], None)); [|now rewrite F].
    vm_compute. vm_compute in H. rewrite H. reflexivity.
Qed.

(** the hypotheses of C22 are met by an ordinary document, read in two chunks *)
Definition sample_document : document :=
  mkdocument (bytes_of "{" ++ q "head" ++ bytes_of ": ") (bytes_of "{" ++ q "vars" ++ bytes_of ":[" ++ q "x}" ++ bytes_of "]}")
    (bytes_of ", " ++ q "results" ++ bytes_of ":{" ++ q "bindings" ++ bytes_of ":")
    [bytes_of "{" ++ q "x" ++ bytes_of ":{" ++ q "value" ++ bytes_of ":" ++ q "]}{\n" ++ bytes_of "}}"; bytes_of "{}"]
    ((bytes_of "{" ++ q "x" ++ bytes_of ":{" ++ q "value" ++ bytes_of ":" ++ q "]}{\n" ++ bytes_of "}}") ++ bytes_of ", {}")
    (bytes_of "}," ++ q "meta" ++ bytes_of ":") (Some (bytes_of "{" ++ q "result-size-total" ++ bytes_of ":2}")) (bytes_of "}").
Example C22_witness : well_formed sample_document /\
  read (fun _ => Some tt) Some (fun _ => Some tt) [firstn 30 (text_of_document sample_document); skipn 30 (text_of_document sample_document)] 1 (Some 1) 0
  = ReadOk [Header tt; Bindings [nth 0 (doc_objects sample_document) []]; Meta tt] 2.
Proof.
  split; [|vm_compute; reflexivity].
  assert (W : ws []) by constructor. assert (W1 : ws [32%N]) by (constructor; [left; reflexivity|constructor]).
  assert (E : json_object 255 (bytes_of "{}")) by (exists [], 254; split; [reflexivity|]; split; [constructor; exact W|reflexivity]).
  assert (S : forall s, forallb (fun b => negb (N.eqb b 34) && negb (N.eqb b 92)) (bytes_of s) = true -> json_string (q s)).
  { intros s H. exists (bytes_of s). split; [|reflexivity]. induction (bytes_of s) as [|b w IH]; [constructor|].
    cbn in H. apply andb_prop in H as [H1 H2]. apply andb_prop in H1 as [H1 H3].
    constructor; [intros ->; discriminate|intros ->; discriminate|auto]. }
  assert (S' : json_string (q "]}{\n")).
  { exists (bytes_of "]}{\n"). split; [|reflexivity]. cbn. do 3 (apply sb_plain; [discriminate|discriminate|]). apply sb_escape. constructor. }
  constructor.
  - exists [], (q "head"), [], [32%N]. repeat split; try assumption; try (apply S; reflexivity).
  - exists (q "vars" ++ [] ++ 58%N :: [] ++ (91%N :: (q "x}") ++ [93%N]) ++ []), 0. split; [reflexivity|]. split; [|reflexivity].
    apply (jm_last 0 [] (q "vars") [] [] _ []); try exact W; try (apply S; reflexivity).
    apply (jv_array 0 (q "x}")). apply (je_last 0 [] (q "x}") []); try exact W. apply jv_string, S. reflexivity.
  - vm_compute. repeat constructor; discriminate.
  - apply (ol_more 255 [] _ [] [bytes_of "{}"] (bytes_of " {}")); try exact W; try discriminate.
    + exists (q "x" ++ [] ++ 58%N :: [] ++ (123%N :: (q "value" ++ [] ++ 58%N :: [] ++ q "]}{\n" ++ []) ++ [125%N]) ++ []), 254.
      split; [reflexivity|]. split; [|reflexivity]. apply (jm_last 254 [] (q "x") [] [] _ []); try exact W; try (apply S; reflexivity).
      apply (jv_object 253). apply (jm_last 253 [] (q "value") [] [] _ []); try exact W; try (apply S; reflexivity). now apply jv_string.
    + apply (ol_last 255 [32%N] (bytes_of "{}") []); assumption.
  - vm_compute. repeat constructor; discriminate.
  - intros m H. injection H as <-. exists (q "result-size-total" ++ bytes_of ":2"). split; [|reflexivity]. vm_compute. repeat constructor; discriminate.
  - discriminate.
Qed.
