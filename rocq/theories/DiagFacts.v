(** The diagnostics on the trees of documents. *)
From Coq Require Import String List Arith NArith Bool Lia Sorted Permutation.
Import ListNotations.
From Verif Require Import ServerModel Kinds KindFacts ParserSyntax ParserModel GrammarData ParserTree ParserTerm ParserBuild ParserSpec ParserChecks ParserOutcome ParserProps
  TextModel TextSpec TextProofs TextProps Utf8Model LexerRegex LexerModel LexerSpec LexerProps FormatData FormatModel FormatTree FormatText FormatParse FormatWeave
  TreeModel TreePlace TreeShape TreeKids TreeItems VarModel VarSpec VarRegions VarOcc VarDoc LexRename VarProps DiagModel DiagSpec AstFacts.

Lemma doc_parse_tree err t x errs : doc_parse err t x errs -> doc_tree err t x.
Proof. intros (gas & g & H). exists gas, g, errs. exact H. Qed.
Lemma range_located err t x p y : doc_tree err t x -> at_path x p = Some y -> exists r, range_at x t p = Some r /\ located x t p r.
Proof.
  intros D E. destruct (range_at_doc _ _ _ _ _ D E) as (a & b & T & L & R). eexists. split; [exact R|]. unfold located, text_at. rewrite E, <- L. cbn [rstart rend].
  assert (firstn (length a) t = a) as F1 by (rewrite T; apply firstn_exact).
  assert (firstn (length a + length (tree_text y)) t = a ++ tree_text y) as F2 by (rewrite T, app_assoc, <- app_length; apply firstn_exact).
  rewrite F1, F2. rewrite T at 1 2. rewrite !app_length. split; [lia|]. split; [|split; reflexivity]. rewrite skipn_exact. apply firstn_exact.
Qed.
Lemma diag_at_ok err t x p y c dat : doc_tree err t x -> at_path x p = Some y ->
  exists d, diag_at x t c dat p = VDone d /\ d_code d = c /\ d_data d = dat /\ located x t p (d_range d).
Proof. intros D E. destruct (range_located _ _ _ _ _ D E) as (r & R & L). unfold diag_at. rewrite R. eexists. split; [reflexivity|]. auto. Qed.
Lemma located_marks x t p d : located x t p (d_range d) -> marks t d.
Proof.
  intros (H1 & H2 & H3 & H4). set (n := chars_before x p) in *. set (w := text_at x p) in *. exists (firstn n t), w, (skipn (length w) (skipn n t)).
  assert (t = firstn n t ++ w ++ skipn (length w) (skipn n t)) as E by (rewrite <- H2 at 1; rewrite firstn_skipn, firstn_skipn; reflexivity).
  split; [exact E|]. split; [exact H3|]. rewrite H4. f_equal. assert (length (firstn n t ++ w) = n + length w) as L by (rewrite app_length, firstn_length, Nat.min_l by lia; reflexivity).
  rewrite app_assoc in E. rewrite E at 1. rewrite <- L. apply firstn_exact.
Qed.

Lemma vmap_pick x t c (f : path -> vout (list diag)) l :
  (forall p, In p l -> f p = VDone [] \/ exists d, f p = VDone [d] /\ d_code d = c /\ located x t p (d_range d)) ->
  exists ds L, vmap f l = VDone ds /\ Forall2 (fun pd d => d_data d = snd pd /\ located x t (fst pd) (d_range d)) L (concat ds) /\
    Forall (fun d => d_code d = c) (concat ds) /\
    (forall p dat, In (p, dat) L <-> In p l /\ exists d, f p = VDone [d] /\ d_data d = dat) /\
    (forall R, StronglySorted R l -> StronglySorted R (map fst L)) /\ (NoDup l -> NoDup (map fst L)).
Proof.
  induction l as [|p l IH]; intros H.
  - exists [], []. split; [reflexivity|]. split; [constructor|]. split; [constructor|]. split; [|split; intros; constructor]. intros p dat. split; [intros []|intros [[] _]].
  - destruct IH as (ds & L & E & F & C & M & S & N); [intros q Hq; apply H; right; exact Hq|]. assert (forall q, In q (map fst L) -> In q l) as Sub.
    { intros q Hq. apply in_map_iff in Hq as ([q' dat] & <- & Hin). apply M in Hin. tauto. }
    destruct (H p (or_introl eq_refl)) as [Ep|(d & Ep & Ec & Hl)].
    + exists ([] :: ds), L. cbn [vmap concat app]. rewrite Ep. cbn [vbind]. rewrite E. split; [reflexivity|]. split; [exact F|]. split; [exact C|]. split; [|split].
      * intros q dat. rewrite M. split; [intros [Hin K]; split; [right; exact Hin|exact K]|]. intros [[<-|Hin] (d & K & Kd)]; [rewrite Ep in K; discriminate|]. split; [exact Hin|]. eauto.
      * intros R HR. inversion HR; subst. apply S. assumption.
      * intros HN. inversion HN; subst. apply N. assumption.
    + exists ([d] :: ds), ((p, d_data d) :: L). cbn [vmap concat app]. rewrite Ep. cbn [vbind]. rewrite E. split; [reflexivity|]. split; [constructor; [split; [reflexivity|exact Hl]|exact F]|].
      split; [constructor; assumption|]. split; [|split].
      * intros q dat. cbn [In]. rewrite M. split.
        { intros [[= <- <-]|[Hin K]]; [split; [left; reflexivity|]; exists d; auto|]. split; [right; exact Hin|exact K]. }
        { intros [[<-|Hin] (d' & K & Kd)]; [left; rewrite Ep in K; injection K as <-; rewrite Kd; reflexivity|]. right. split; [exact Hin|]. eauto. }
      * intros R HR. inversion HR as [|? ? HR' HF]; subst. cbn [map fst]. constructor; [apply S; assumption|]. apply Forall_forall. intros q Hq. rewrite Forall_forall in HF. apply HF, Sub, Hq.
      * intros HN. inversion HN as [|? ? HN1 HN2]; subst. cbn [map fst]. constructor; [|apply N; assumption]. intros Hin. apply HN1, Sub, Hin.
Qed.
(** one diagnostic for each member of a list *)
Lemma vmap_all err t x c dat l : doc_tree err t x -> (forall p, In p l -> exists y, at_path x p = Some y) -> 
  exists ds, vmap (diag_at x t c dat) l = VDone ds /\ Forall2 (fun pd d => d_data d = snd pd /\ located x t (fst pd) (d_range d)) (map (fun p => (p, dat)) l) ds /\ Forall (fun d => d_code d = c) ds.
Proof.
  intros D. induction l as [|p l IH]; intros H; [exists []; split; [reflexivity|]; split; constructor|].
  destruct IH as (ds & E & F & C); [intros q Hq; apply H; right; exact Hq|]. destruct (H p (or_introl eq_refl)) as [y Ey]. destruct (diag_at_ok _ _ _ _ _ c dat D Ey) as (d & Ed & Ec & Edat & Hl).
  exists (d :: ds). cbn [vmap map]. rewrite Ed. cbn [vbind]. rewrite E. split; [reflexivity|]. split; constructor; auto.
Qed.

(** ** prefixes *)
Lemma prefix_part_fun w p p' : prefix_part w p -> prefix_part w p' -> p = p'.
Proof. intros (r & E & H) (r' & E' & H'). pose proof (split_colon_spec _ r H) as S. pose proof (split_colon_spec _ r' H') as S'. rewrite <- E in S. rewrite <- E' in S'. congruence. Qed.
Lemma uses_fun x p w w' : uses x p w -> uses x p w' -> w = w'.
Proof. intros [_ H] [_ H']. eapply prefix_part_fun; eassumption. Qed.
Lemma decl_token err t x d i u : doc_tree err t x -> at_path x (d ++ [i]) = Some (Tok K_PNAME_NS u) -> exists w, u = w ++ [COLON] /\ ~ In COLON w.
Proof. intros D E. destruct (doc_token _ _ _ _ _ _ D E) as [Hin _]. exact (lex_ns_text _ _ _ Hin). Qed.
Lemma declares_fun err t x d w w' : doc_tree err t x -> declares x d w -> declares x d w' -> w = w'.
Proof.
  intros D ([cs E] & i & u & Ei & P) (_ & j & v & Ej & P').
  assert (i = j) as <-.
  { rewrite (at_child _ _ _ _ _ E) in Ei, Ej || (rewrite (at_child _ _ _ _ i E) in Ei; rewrite (at_child _ _ _ _ j E) in Ej).
    destruct (Nat.lt_trichotomy i j) as [H|[H|H]]; [exfalso|exact H|exfalso];
      eapply (doc_order _ _ _ _ _ _ (item_eqb (Leaf K_PNAME_NS)) (item_eqb (Leaf K_PNAME_NS))); try exact H; try exact D; try exact E; try eassumption; try (left; reflexivity); try reflexivity; vm_compute; reflexivity. }
  rewrite Ei in Ej. injection Ej as <-. eapply prefix_part_fun; eassumption.
Qed.
Lemma declared_spec err t x d : doc_tree err t x -> node_at x d K_PrefixDecl ->
  (exists w, declared_prefix x d = VDone (Some w) /\ declares x d w) \/ (declared_prefix x d = VDone None /\ unlabelled x d).
Proof.
  intros D H. pose proof H as [cs E]. unfold declared_prefix. destruct (find (fun q => kind_is x q K_PNAME_NS) (children x d)) as [q|] eqn:F.
  - left. apply find_some in F as [Hin K]. unfold children in Hin. rewrite E in Hin. apply in_imap in Hin as (i & c & Ec & ->). cbn [Nat.add] in *. unfold kind_is, kind_at in K. rewrite (at_child _ _ _ _ _ E), Ec in K. cbn [option_map] in K. apply kind_eqb_eq in K.
    destruct c as [k u|k ds]; cbn [tkind] in K; subst k.
    + assert (at_path x (d ++ [i]) = Some (Tok K_PNAME_NS u)) as Ei by (rewrite (at_child _ _ _ _ _ E); exact Ec). destruct (decl_token _ _ _ _ _ _ D Ei) as (w & -> & Hw). exists w. unfold text_at. rewrite Ei. cbn [tree_text].
      rewrite (split_colon_spec w [] Hw). split; [reflexivity|]. split; [exact H|]. exists i, (w ++ [COLON]). split; [exact Ei|]. exists []. auto.
    + exfalso. destruct (doc_kids _ _ _ _ _ _ _ _ D E (nth_error_In _ _ Ec)) as [K|(R & ER & K)]; [discriminate|]. injection ER as <-. destruct K.
  - right. split; [reflexivity|]. split; [exact H|]. intros w (_ & i & u & Ei & _). pose proof Ei as Ec. rewrite (at_child _ _ _ _ _ E) in Ec.
    assert (In (d ++ [i]) (children x d)) as Hin by (unfold children; rewrite E; apply in_imap; eauto). pose proof (find_none _ _ F _ Hin) as K. cbv beta in K. unfold kind_is, kind_at in K. rewrite Ei in K. discriminate.
Qed.
Lemma used_spec err t x p : doc_tree err t x -> node_at x p K_PrefixedName -> exists w, used_prefix x p = VDone w /\ uses x p w.
Proof.
  intros D H. pose proof H as [cs E]. destruct (doc_name _ _ _ _ _ D E) as (k & u & -> & Hk). assert (at_path x (p ++ [0]) = Some (Tok k u)) as E0 by (rewrite (at_child _ _ _ _ _ E); reflexivity).
  destruct (doc_token _ _ _ _ _ _ D E0) as [Hin _]. assert (exists w r, u = w ++ COLON :: r /\ ~ In COLON w) as (w & r & -> & Hw).
  { destruct Hk as [-> | ->]; [destruct (lex_ns_text _ _ _ Hin) as (w & -> & Hw); exists w, []; auto|exact (lex_ln_text _ _ _ Hin)]. }
  exists w. unfold used_prefix, uses, text_at. rewrite E. cbn [tree_text flat_map]. rewrite app_nil_r, (split_colon_spec _ _ Hw). split; [reflexivity|]. split; [exact H|]. exists r. auto.
Qed.
Lemma mem_iff w l : mem w l = true <-> In w l.
Proof.
  unfold mem. rewrite existsb_exists. split.
  - intros (v & Hin & E). unfold text_eqb in E. destruct (list_eq_dec N.eq_dec w v) as [->|]; [exact Hin|discriminate].
  - intros Hin. exists w. split; [exact Hin|]. unfold text_eqb. destruct (list_eq_dec N.eq_dec w w); [reflexivity|congruence].
Qed.
Lemma mem_false w l : mem w l = false <-> ~ In w l.
Proof. rewrite <- mem_iff. destruct (mem w l); split; congruence. Qed.
Lemma forall2_in {A B} (R : A -> B -> Prop) l m b : Forall2 R l m -> In b m -> exists a, In a l /\ R a b.
Proof. induction 1 as [|x y l m H _ IH]; intros []; [subst; exists x; split; [left; reflexivity|exact H]|]. destruct (IH H0) as (a & Ha & K). exists a. split; [right; exact Ha|exact K]. Qed.
Lemma forall2_in_l {A B} (R : A -> B -> Prop) l m a : Forall2 R l m -> In a l -> exists b, In b m /\ R a b.
Proof. induction 1 as [|x y l m H _ IH]; intros []; [subst; exists y; split; [left; reflexivity|exact H]|]. destruct (IH H0) as (b & Hb & K). exists b. split; [right; exact Hb|exact K]. Qed.
Definition coded (c : code) (ds : list diag) : Prop := Forall (fun d => d_code d = c) ds.
Lemma node_some x p k : node_at x p k -> exists y, at_path x p = Some y.
Proof. intros [cs E]. eauto. Qed.
Lemma no_reports x t P : (forall p dat, ~ P p dat) -> reports_in_order x t P [].
Proof. intros H. exists []. split; [constructor|]. split; [|constructor]. intros p dat. split; [intros []|]. intros K. exact (H _ _ K). Qed.
Lemma declared_all err t x : doc_tree err t x -> query_doc x ->
  exists ds, match prologue x with Some pr => vmap (declared_prefix x) (prefix_declarations x pr) | None => VDone [] end = VDone ds /\ forall w, In w (flatten ds) <-> exists d, declares x d w.
Proof.
  intros D Q. destruct (prologue x) as [pr|] eqn:E.
  - destruct (vmap_done (declared_prefix x) (fun d o => match o with Some w => declares x d w | None => unlabelled x d end) (prefix_declarations x pr)) as (ds & Es & F).
    { intros d Hd. assert (node_at x d K_PrefixDecl) as H by (apply (declarations_iff _ _ _ _ D Q); eauto). destruct (declared_spec _ _ _ _ D H) as [(w & -> & Hw)|[-> Hu]]; eauto. }
    exists ds. split; [exact Es|]. intros w. unfold flatten. rewrite in_flat_map. split.
    + intros (o & Hin & K). destruct o as [v|]; [|destruct K]. destruct K as [<-|[]]. destruct (forall2_in _ _ _ _ F Hin) as (d & _ & H). eauto.
    + intros [d H]. assert (In d (prefix_declarations x pr)) as Hin. { destruct (proj2 (declarations_iff _ _ _ d D Q) (proj1 H)) as (pr' & E' & Hin). rewrite E in E'. injection E' as <-. exact Hin. }
      destruct (forall2_in_l _ _ _ _ F Hin) as ([v|] & Hv & K); [|exfalso; exact (proj2 K _ H)]. exists (Some v). split; [exact Hv|]. left. eapply declares_fun; eassumption.
  - exists []. split; [reflexivity|]. intros w. split; [intros []|]. intros (d & H & _). apply (declarations_iff _ _ _ _ D Q) in H as (pr & E' & _). congruence.
Qed.
Lemma undeclared_ok err t x : doc_tree err t x -> query_doc x -> exists ds, undeclared_prefix x t = VDone ds /\ coded UndeclaredPrefix ds /\
  reports_in_order x t (fun p dat => in_select x p /\ exists w, uses x p w /\ dat = DString w /\ forall d, ~ declares x d w) ds.
Proof.
  intros D Q. unfold undeclared_prefix. destruct (select_query x) as [sq|] eqn:Es.
  - pose proof (proj1 (select_query_iff _ _ _ _ D Q) Es) as Hs. destruct (declared_all _ _ _ D Q) as (decl & -> & Hdecl). cbn [vbind].
    match goal with |- context [vmap ?f ?l] => destruct (vmap_pick x t UndeclaredPrefix f l) as (ds & L & -> & F & C & M & S & _) end.
    { intros p Hp. apply in_nodes_of_kind in Hp as (r & -> & Hn). destruct (used_spec _ _ _ _ D Hn) as (w & -> & Hw). cbn [vbind]. destruct (mem w (flatten decl)); [left; reflexivity|right].
      destruct (node_some _ _ _ Hn) as [y Ey]. destruct (diag_at_ok _ _ _ _ _ UndeclaredPrefix (DString w) D Ey) as (d & -> & Hd & _ & Hl). exists d. split; [reflexivity|auto]. }
    cbn [vbind]. exists (concat ds). split; [reflexivity|]. split; [exact C|]. exists L. split; [apply S, nodes_of_kind_sorted|]. split; [|exact F]. intros p dat. rewrite M. split.
    + intros [Hp (d & Hd & Edat)]. apply in_nodes_of_kind in Hp as (r & -> & Hn). split; [exists sq; split; [exact Hs|exists r; reflexivity]|].
      destruct (used_spec _ _ _ _ D Hn) as (w & Eu & Hw). rewrite Eu in Hd. cbn [vbind] in Hd. destruct (mem w (flatten decl)) eqn:Em; [discriminate|].
      destruct (node_some _ _ _ Hn) as [y Ey]. destruct (diag_at_ok _ _ _ _ _ UndeclaredPrefix (DString w) D Ey) as (d' & E' & _ & Hdat & _). rewrite E' in Hd. injection Hd as <-. exists w.
      split; [exact Hw|]. split; [congruence|]. intros d0 H0. apply mem_false in Em. apply Em, Hdecl. eauto.
    + intros [(sq' & Hs' & r & ->) (w & Hw & -> & Hn)]. apply (select_query_iff _ _ _ _ D Q) in Hs'. rewrite Es in Hs'. injection Hs' as <-. split; [apply in_nodes_of_kind; exists r; split; [reflexivity|apply Hw]|].
      destruct (used_spec _ _ _ _ D (proj1 Hw)) as (w' & -> & Hw'). rewrite (uses_fun _ _ _ _ Hw' Hw). cbn [vbind].
      assert (mem w (flatten decl) = false) as -> by (apply mem_false; intros Hin; apply Hdecl in Hin as [d Hd]; exact (Hn _ Hd)).
      destruct (node_some _ _ _ (proj1 Hw)) as [y Ey]. destruct (diag_at_ok _ _ _ _ _ UndeclaredPrefix (DString w) D Ey) as (d & -> & _ & Hdat & _). exists d. split; [reflexivity|exact Hdat].
  - exists []. split; [reflexivity|]. split; [constructor|]. apply no_reports. intros p dat [(sq & Hs & _) _]. apply (select_query_iff _ _ _ _ D Q) in Hs. congruence.
Qed.
Lemma used_all err t x : doc_tree err t x -> query_doc x ->
  exists ws, match strip_prologue x with Some q => vmap (used_prefix x) (nodes_of_kind x q K_PrefixedName) | None => VDone [] end = VDone ws /\ forall w, In w ws <-> exists p, uses x p w.
Proof.
  intros D Q. destruct (strip_prologue x) as [q|] eqn:E.
  - destruct (vmap_done (used_prefix x) (uses x) (nodes_of_kind x q K_PrefixedName)) as (ws & Es & F).
    { intros p Hp. apply in_nodes_of_kind in Hp as (r & -> & Hn). apply (used_spec _ _ _ _ D Hn). }
    exists ws. split; [exact Es|]. intros w. split; [intros Hin; destruct (forall2_in _ _ _ _ F Hin) as (p & _ & H); eauto|]. intros [p H].
    assert (In p (nodes_of_kind x q K_PrefixedName)) as Hin. { destruct (proj2 (names_of_query _ _ _ p D Q) (proj1 H)) as (q' & E' & Hin). rewrite E in E'. injection E' as <-. exact Hin. }
    destruct (forall2_in_l _ _ _ _ F Hin) as (v & Hv & K). rewrite (uses_fun _ _ _ _ H K). exact Hv.
  - exists []. split; [reflexivity|]. intros w. split; [intros []|]. intros (p & H & _). apply (names_of_query _ _ _ _ D Q) in H as (q & E' & _). congruence.
Qed.
(** an incomplete declaration counts as one of the empty prefix *)
Definition label_of (x : tree) (d : path) (w : text) : Prop := declares x d w \/ (unlabelled x d /\ w = []).
Lemma unused_ok err t x : doc_tree err t x -> query_doc x -> exists ds, unused_prefix x t = VDone ds /\ coded UnusedPrefix ds /\
  reports_in_order x t (fun d dat => (exists w, declares x d w /\ dat = DString w /\ forall p, ~ uses x p w) \/
                                     (unlabelled x d /\ dat = NoData /\ forall p, ~ uses x p [])) ds.
Proof.
  intros D Q. unfold unused_prefix. destruct (prologue x) as [pr|] eqn:Ep.
  - destruct (used_all _ _ _ D Q) as (used & -> & Hused). cbn [vbind].
    match goal with |- context [vmap ?f ?l] => destruct (vmap_pick x t UnusedPrefix f l) as (ds & L & -> & F & C & M & S & _) end.
    { intros p Hp. assert (node_at x p K_PrefixDecl) as H by (apply (declarations_iff _ _ _ _ D Q); eauto). destruct (node_some _ _ _ H) as [y Ey].
      destruct (declared_spec _ _ _ _ D H) as [(w & -> & Hw)|[-> Hu]]; cbn [vbind]; destruct (mem _ used); [left; reflexivity|right|left; reflexivity|right].
      - destruct (diag_at_ok _ _ _ _ _ UnusedPrefix (DString w) D Ey) as (d & -> & Hd & _ & Hl). exists d. split; [reflexivity|auto].
      - destruct (diag_at_ok _ _ _ _ _ UnusedPrefix NoData D Ey) as (d & -> & Hd & _ & Hl). exists d. split; [reflexivity|auto]. }
    cbn [vbind]. exists (concat ds). split; [reflexivity|]. split; [exact C|]. exists L. split; [apply S, StronglySorted_filter, child_nodes_sorted|]. split; [|exact F]. intros p dat. rewrite M.
    assert (forall w, mem w used = false <-> forall q, ~ uses x q w) as Hm.
    { intros w. rewrite mem_false, Hused. split; [intros H q Hq; apply H; eauto|intros H [q Hq]; exact (H _ Hq)]. }
    split.
    + intros [Hp (d & Hd & Edat)]. assert (node_at x p K_PrefixDecl) as H by (apply (declarations_iff _ _ _ _ D Q); eauto). destruct (node_some _ _ _ H) as [y Ey].
      destruct (declared_spec _ _ _ _ D H) as [(w & E & Hw)|[E Hu]]; rewrite E in Hd; cbn [vbind] in Hd; destruct (mem _ used) eqn:Em; try discriminate; pose proof (proj1 (Hm _) Em) as Hno.
      * left. exists w. split; [exact Hw|]. split; [|exact Hno]. destruct (diag_at_ok _ _ _ _ _ UnusedPrefix (DString w) D Ey) as (d' & E' & _ & Hdat & _). rewrite E' in Hd. injection Hd as <-. congruence.
      * right. split; [exact Hu|]. split; [|exact Hno]. destruct (diag_at_ok _ _ _ _ _ UnusedPrefix NoData D Ey) as (d' & E' & _ & Hdat & _). rewrite E' in Hd. injection Hd as <-. congruence.
    + intros K. assert (node_at x p K_PrefixDecl) as H by (destruct K as [(w & [K _] & _)|[[K _] _]]; exact K). destruct (node_some _ _ _ H) as [y Ey].
      assert (In p (prefix_declarations x pr)) as Hin. { destruct (proj2 (declarations_iff _ _ _ p D Q) H) as (pr' & E' & Hin). rewrite Ep in E'. injection E' as <-. exact Hin. }
      split; [exact Hin|]. destruct (declared_spec _ _ _ _ D H) as [(w & -> & Hw)|[-> Hu]]; cbn [vbind].
      * destruct K as [(w' & Hw' & -> & Hn)|[Hu _]]; [|exfalso; exact (proj2 Hu _ Hw)]. rewrite <- (declares_fun _ _ _ _ _ _ D Hw Hw') in *. rewrite (proj2 (Hm w) Hn).
        destruct (diag_at_ok _ _ _ _ _ UnusedPrefix (DString w) D Ey) as (d' & -> & _ & Hdat & _). exists d'. split; [reflexivity|exact Hdat].
      * destruct K as [(w' & Hw' & _)|(_ & -> & Hn)]; [exfalso; exact (proj2 Hu _ Hw')|]. rewrite (proj2 (Hm []) Hn).
        destruct (diag_at_ok _ _ _ _ _ UnusedPrefix NoData D Ey) as (d' & -> & _ & Hdat & _). exists d'. split; [reflexivity|exact Hdat].
  - exists []. split; [reflexivity|]. split; [constructor|]. apply no_reports. intros p dat K. assert (node_at x p K_PrefixDecl) as H by (destruct K as [(w & [K _] & _)|[[K _] _]]; exact K).
    apply (declarations_iff _ _ _ _ D Q) in H as (pr & E' & _). congruence.
Qed.
Lemma duplicates_ok err t x : doc_tree err t x -> forall ds seen, StronglySorted doc_before ds -> (forall d, In d ds -> node_at x d K_PrefixDecl) ->
  ((exists d, In d ds /\ unlabelled x d) /\ duplicates x t seen ds = VDone None) \/
  ((forall d, In d ds -> exists w, declares x d w) /\ exists l L, duplicates x t seen ds = VDone (Some l) /\ coded DuplicatePrefix l /\
    Forall2 (fun pd d => d_data d = snd pd /\ located x t (fst pd) (d_range d)) L l /\ StronglySorted doc_before (map fst L) /\
    forall d dat, In (d, dat) L <-> In d ds /\ exists w, declares x d w /\ dat = DString w /\ (In w seen \/ exists d', In d' ds /\ doc_before d' d /\ declares x d' w)).
Proof.
  intros D. induction ds as [|d ds IH]; intros sn S H.
  - right. split; [intros d []|]. exists [], []. split; [reflexivity|]. split; [constructor|]. split; [constructor|]. split; [constructor|]. intros d dat. split; [intros []|intros [[] _]].
  - inversion S as [|? ? S' Fd]; subst. rewrite Forall_forall in Fd. assert (forall e, In e ds -> node_at x e K_PrefixDecl) as H' by (intros e He; apply H; right; exact He).
    pose proof (H d (or_introl eq_refl)) as Hd. cbn [duplicates]. destruct (declared_spec _ _ _ _ D Hd) as [(w & -> & Hw)|[-> Hu]]; cbn [vbind].
    2: { left. split; [exists d; split; [left; reflexivity|exact Hu]|reflexivity]. }
    destruct (mem w sn) eqn:Em.
    + destruct (node_some _ _ _ Hd) as [y Ey]. destruct (diag_at_ok _ _ _ _ _ DuplicatePrefix (DString w) D Ey) as (g & -> & Gc & Gd & Gl). cbn [vbind].
      destruct (IH sn S' H') as [[(e & He & Hu) ->]|(A & l & L & -> & C & F & SL & M)]; cbn [vbind option_map]; [left; split; [exists e; split; [right; exact He|exact Hu]|reflexivity]|right].
      apply mem_iff in Em. split; [intros e [<-|He]; [eauto|apply A, He]|]. exists (g :: l), ((d, DString w) :: L). split; [reflexivity|]. split; [constructor; assumption|]. split; [constructor; [split; assumption|exact F]|]. split.
      * cbn [map fst]. constructor; [exact SL|]. apply Forall_forall. intros e He. apply in_map_iff in He as ([e' dat] & <- & He). apply M in He as [He _]. apply Fd, He.
      * intros e dat. cbn [In]. rewrite M. split.
        { intros [[= <- <-]|(He & v & Hv & -> & K)]; [split; [left; reflexivity|]; exists w; auto|]. split; [right; exact He|]. exists v. split; [exact Hv|]. split; [reflexivity|].
          destruct K as [K|(d' & K1 & K2 & K3)]; [left; exact K|right; exists d'; auto]. }
        { intros [[<-|He] (v & Hv & -> & K)]; [left; rewrite (declares_fun _ _ _ _ _ _ D Hw Hv); reflexivity|right]. split; [exact He|]. exists v. split; [exact Hv|]. split; [reflexivity|].
          destruct K as [K|(d' & [<-|K1] & K2 & K3)]; [left; exact K|left; rewrite <- (declares_fun _ _ _ _ _ _ D Hw K3); exact Em|right; exists d'; auto]. }
    + destruct (IH (w :: sn) S' H') as [[(e & He & Hu) E]|(A & l & L & E & C & F & SL & M)]; [left; split; [exists e; split; [right; exact He|exact Hu]|exact E]|right].
      apply mem_false in Em. split; [intros e [<-|He]; [eauto|apply A, He]|]. exists l, L. split; [exact E|]. split; [exact C|]. split; [exact F|]. split; [exact SL|].
      intros e dat. rewrite M. split.
      * intros (He & v & Hv & -> & K). split; [right; exact He|]. exists v. split; [exact Hv|]. split; [reflexivity|]. cbn [In] in K.
        destruct K as [[<-|K]|(d' & K1 & K2 & K3)]; [right; exists d; split; [left; reflexivity|]; split; [apply Fd, He|exact Hw]|left; exact K|right; exists d'; split; [right; exact K1|]; auto].
      * intros [He (v & Hv & -> & K)]. destruct He as [<-|He].
        { exfalso. rewrite (declares_fun _ _ _ _ _ _ D Hv Hw) in *. destruct K as [K|(d' & [<-|K1] & K2 & _)]; [exact (Em K)|exact (doc_before_irrefl _ K2)|].
          apply Fd in K1. exact (doc_before_irrefl _ (doc_before_trans _ _ _ K1 K2)). }
        { split; [exact He|]. exists v. split; [exact Hv|]. split; [reflexivity|]. cbn [In]. destruct K as [K|(d' & [<-|K1] & K2 & K3)]; [left; right; exact K| |right; exists d'; auto].
          left. left. eapply declares_fun; eassumption. }
Qed.
Lemma duplicate_ok err t x : doc_tree err t x -> query_doc x -> exists ds, duplicate_prefix x t = VDone ds /\ coded DuplicatePrefix ds /\
  reports_in_order x t (fun d dat => (forall u, ~ unlabelled x u) /\ exists w d', declares x d w /\ dat = DString w /\ declares x d' w /\ doc_before d' d) ds.
Proof.
  intros D Q. unfold duplicate_prefix. destruct (prologue x) as [pr|] eqn:Ep.
  - assert (forall d, In d (prefix_declarations x pr) <-> node_at x d K_PrefixDecl) as Hin.
    { intros d. rewrite <- (declarations_iff _ _ _ _ D Q), Ep. split; [eauto|]. intros (pr' & [= <-] & H). exact H. }
    destruct (duplicates_ok _ _ _ D (prefix_declarations x pr) []) as [[(u & Hu1 & Hu) ->]|(A & l & L & -> & C & F & SL & M)]; [apply StronglySorted_filter, child_nodes_sorted|intros d; apply Hin| |].
    + cbn [vbind]. exists []. split; [reflexivity|]. split; [constructor|]. apply no_reports. intros p dat [K _]. exact (K _ Hu).
    + cbn [vbind]. exists l. split; [reflexivity|]. split; [exact C|]. exists L. split; [exact SL|]. split; [|exact F]. intros d dat. rewrite M. split.
      * intros (Hd & w & Hw & -> & [[]|(d' & H1 & H2 & H3)]). split; [|exists w, d'; auto]. intros u [Hu1 Hu2]. apply Hin in Hu1. destruct (A _ Hu1) as [v Hv]. exact (Hu2 _ Hv).
      * intros (_ & w & d' & Hw & -> & Hw' & B). split; [apply Hin, Hw|]. exists w. split; [exact Hw|]. split; [reflexivity|]. right. exists d'. split; [apply Hin, Hw'|]. auto.
  - exists []. split; [reflexivity|]. split; [constructor|]. apply no_reports. intros p dat (_ & w & d & [H _] & _). apply (declarations_iff _ _ _ _ D Q) in H as (pr & E' & _). congruence.
Qed.

(** ** IRIs *)
Lemma raw_spec err t x p : doc_tree err t x -> node_at x p K_iri -> exists o, raw_iri x p = VDone o /\ forall u, o = Some u <-> iriref x p u.
Proof.
  intros D H. pose proof H as [cs E]. unfold raw_iri, children. rewrite E. unfold text_at. rewrite E.
  destruct (doc_iri _ _ _ _ _ D E) as [(w & ->)|[(k & w & -> & Hk)|(kw & w & ->)]]; cbn [imap].
  - assert (at_path x (p ++ [0]) = Some (Tok K_IRIREF w)) as E0 by (rewrite (at_child _ _ _ _ _ E); reflexivity). unfold kind_is, kind_at. rewrite E0. cbn [option_map tkind]. rewrite kind_eqb_refl. cbn [andb tree_text flat_map]. rewrite app_nil_r.
    destruct (doc_token _ _ _ _ _ _ D E0) as [Hin _]. destruct (lex_iriref_text _ _ _ Hin) as (u & ->).
    assert (2 <=? byte_len (60%N :: u ++ [62%N]) = true) as -> by (apply Nat.leb_le; rewrite byte_len_cons, byte_len_app; cbn; lia). rewrite rev_app_distr. cbn [rev app]. cbn [len_utf8 N.ltb N.compare Pos.compare Pos.compare_cont andb Nat.eqb].
    exists (Some u). split; [cbn; rewrite rev_involutive; reflexivity|]. intros v. split.
    + intros [= <-]. split; [exact H|]. exists 0. exact E0.
    + intros (_ & i & Ei). rewrite (at_child _ _ _ _ _ E) in Ei. destruct i as [|[|i]]; try discriminate. injection Ei as K. apply app_inv_tail in K. f_equal. exact K.
  - unfold kind_is, kind_at. rewrite (at_child _ _ _ _ _ E). cbn [nth_error option_map tkind]. assert (kind_eqb K_PrefixedName K_IRIREF = false) as -> by reflexivity. cbn [andb]. exists None. split; [reflexivity|]. intros u. split; [discriminate|].
    intros (_ & i & Ei). rewrite (at_child _ _ _ _ _ E) in Ei. destruct i as [|[|i]]; discriminate.
  - unfold kind_is, kind_at. rewrite (at_child _ _ _ _ _ E). cbn [nth_error option_map tkind]. assert (kind_eqb K_Error K_IRIREF = false) as -> by reflexivity. cbn [andb]. exists None. split; [reflexivity|]. intros u. split; [discriminate|].
    intros (_ & i & Ei). rewrite (at_child _ _ _ _ _ E) in Ei. destruct i as [|[|i]]; discriminate.
Qed.
Lemma uncompacted_ok err t x shorten : doc_tree err t x -> query_doc x -> exists ds, uncompacted_uri shorten x t = VDone ds /\ coded UncompactedUri ds /\
  reports_in_order x t (fun p dat => in_select x p /\ exists u pr ns cu, iriref x p u /\ shorten u = Some (pr, ns, cu) /\ dat = DStrings [pr; ns; cu]) ds.
Proof.
  intros D Q. unfold uncompacted_uri. destruct (select_query x) as [sq|] eqn:Es.
  - pose proof (proj1 (select_query_iff _ _ _ _ D Q) Es) as Hs.
    match goal with |- context [vmap ?f ?l] => destruct (vmap_pick x t UncompactedUri f l) as (ds & L & -> & F & C & M & S & _) end.
    { intros p Hp. apply in_nodes_of_kind in Hp as (r & -> & Hn). destruct (raw_spec _ _ _ _ D Hn) as (o & -> & Ho). cbn [vbind]. destruct o as [u|]; [|left; reflexivity]. destruct (shorten u) as [[[pr ns] cu]|]; [|left; reflexivity]. right.
      destruct (node_some _ _ _ Hn) as [y Ey]. destruct (range_located _ _ _ _ _ D Ey) as (rg & -> & Hl). eexists. split; [reflexivity|]. cbn [d_code d_range]. auto. }
    cbn [vbind]. exists (concat ds). split; [reflexivity|]. split; [exact C|]. exists L. split; [apply S, nodes_of_kind_sorted|]. split; [|exact F]. intros p dat. rewrite M. split.
    + intros [Hp (d & Hd & Edat)]. apply in_nodes_of_kind in Hp as (r & -> & Hn). split; [exists sq; split; [exact Hs|exists r; reflexivity]|].
      destruct (raw_spec _ _ _ _ D Hn) as (o & Eo & Ho). rewrite Eo in Hd. cbn [vbind] in Hd. injection Hd as Hd. destruct o as [u|]; [|discriminate]. destruct (shorten u) as [[[pr ns] cu]|] eqn:Esh; [|discriminate].
      destruct (range_at x t (sq ++ r)) as [rg|]; [|discriminate]. injection Hd as <-. exists u, pr, ns, cu. split; [apply Ho; reflexivity|]. split; [exact Esh|]. rewrite <- Edat. reflexivity.
    + intros [(sq' & Hs' & r & ->) (u & pr & ns & cu & Hu & Esh & ->)]. apply (select_query_iff _ _ _ _ D Q) in Hs'. rewrite Es in Hs'. injection Hs' as <-. pose proof (proj1 Hu) as Hn.
      split; [apply in_nodes_of_kind; exists r; split; [reflexivity|exact Hn]|]. destruct (raw_spec _ _ _ _ D Hn) as (o & -> & Ho). apply Ho in Hu. rewrite Hu. cbn [vbind]. rewrite Esh.
      destruct (node_some _ _ _ Hn) as [y Ey]. destruct (range_located _ _ _ _ _ D Ey) as (rg & -> & Hl). eexists. split; [reflexivity|]. reflexivity.
  - exists []. split; [reflexivity|]. split; [constructor|]. apply no_reports. intros p dat [(sq & Hs & _) _]. apply (select_query_iff _ _ _ _ D Q) in Hs. congruence.
Qed.

(** ** the parts of a select query *)
Lemma part_child x q k c : part x q k c <-> exists i, c = q ++ [i] /\ node_at x (q ++ [i]) k.
Proof. split; [intros [[i ->] H]; eauto|]. intros (i & -> & H). split; [eauto|exact H]. Qed.
Lemma select_clause_iff err t x q k sc : doc_tree err t x -> node_at x q k -> select_like k = true -> select_clause x q = Some sc <-> part x q K_SelectClause sc.
Proof.
  intros D H S. assert (ordered k (item_eqb (Sub K_SelectClause)) (item_eqb (Sub K_SelectClause)) = true) as O by (destruct k; try discriminate S; vm_compute; reflexivity).
  unfold select_clause. rewrite part_child. split.
  - intros E. pose proof E as E'. apply first_child_by_kind_some in E' as (i & k' & -> & _). exists i. split; [reflexivity|]. apply (first_child_by_kind_iff _ _ _ _ _ _ _ D H O), E.
  - intros (i & -> & Hn). apply (first_child_by_kind_iff _ _ _ _ _ _ _ D H O), Hn.
Qed.
Lemma where_clause_iff err t x q k wc : doc_tree err t x -> node_at x q k -> select_like k = true -> where_clause x q = Some wc <-> part x q K_WhereClause wc.
Proof.
  intros D H S. assert (ordered k (item_eqb (Sub K_WhereClause)) (item_eqb (Sub K_WhereClause)) = true) as O by (destruct k; try discriminate S; vm_compute; reflexivity).
  unfold where_clause. rewrite part_child. split.
  - intros E. pose proof E as E'. apply first_child_by_kind_some in E' as (i & k' & -> & _). exists i. split; [reflexivity|]. apply (first_child_by_kind_iff _ _ _ _ _ _ _ D H O), E.
  - intros (i & -> & Hn). apply (first_child_by_kind_iff _ _ _ _ _ _ _ D H O), Hn.
Qed.
Lemma solution_modifier_iff err t x q k sm : doc_tree err t x -> node_at x q k -> select_like k = true -> solution_modifier x q = Some sm <-> part x q K_SolutionModifier sm /\ ~ hidden x q.
Proof.
  intros D H S. unfold solution_modifier. rewrite part_child. split.
  - intros E. unfold of_kind in E. destruct (last_child x q) as [n|] eqn:L; [|discriminate]. destruct (kind_is x n K_SolutionModifier) eqn:K; [|discriminate]. injection E as ->.
    apply last_child_spec in L as (i & k' & -> & Hk & M). apply (kind_is_iff _ _ _ _ Hk) in K. subst k'. split; [eauto|]. intros (vc & (j & ->) & Hv).
    assert (ordered k (item_eqb (Sub K_ValuesClause)) any_sub = true) as O by (destruct k; try discriminate S; vm_compute; reflexivity).
    pose proof (M _ _ Hv) as M1. pose proof (nodes_order _ _ _ _ _ _ _ _ _ _ _ D H O Hv Hk eq_refl eq_refl) as M2. assert (i = j) as <- by lia. pose proof (node_at_fun _ _ _ _ Hk Hv). discriminate.
  - intros [(i & -> & Hi) Hh]. unfold of_kind. destruct (last_child x q) as [n|] eqn:L; [|exfalso; eapply last_child_none; eassumption]. apply last_child_spec in L as (j & k' & -> & Hk & M).
    assert (ordered k (item_eqb (Sub K_SolutionModifier)) (fun a => any_sub a && negb (item_eqb (Sub K_ValuesClause) a)) = true) as O by (destruct k; try discriminate S; vm_compute; reflexivity).
    assert (i = j) as <-.
    { apply Nat.le_antisymm; [eapply M, Hi|]. apply (nodes_order _ _ _ _ _ _ _ _ _ _ _ D H O Hi Hk eq_refl). cbn [any_sub andb]. apply negb_true_iff. apply not_true_is_false. intros K. apply item_eqb_eq in K. injection K as <-. apply Hh. exists (q ++ [j]). split; [eauto|exact Hk]. }
    rewrite (proj2 (kind_is_iff _ _ _ _ Hi) eq_refl). reflexivity.
Qed.
Lemma group_clause_iff err t x q k gc : doc_tree err t x -> node_at x q k -> select_like k = true -> group_clause x q = Some gc <-> grouped x q gc /\ ~ hidden x q.
Proof.
  intros D H S. unfold group_clause, grouped. split.
  - intros E. destruct (solution_modifier x q) as [sm|] eqn:Es; [|discriminate]. apply (solution_modifier_iff _ _ _ _ _ _ D H S) in Es as [P Hh]. split; [|exact Hh]. exists sm. split; [exact P|].
    apply part_child. destruct (first_child x sm) as [n|] eqn:F; [|discriminate]. pose proof F as F'. apply first_child_spec in F' as (i & k' & -> & _). rewrite <- F in E.
    assert (gc = sm ++ [i]) as -> by (rewrite F in E; unfold of_kind in E; destruct (kind_is x (sm ++ [i]) K_GroupClause); congruence).
    exists i. split; [reflexivity|]. apply (first_child_iff _ _ _ _ K_SolutionModifier _ _ D (proj2 P)); [vm_compute; reflexivity|exact E].
  - intros [(sm & P & G) Hh]. rewrite (proj2 (solution_modifier_iff _ _ _ _ _ sm D H S) (conj P Hh)). apply part_child in G as (i & -> & G). apply (first_child_iff _ _ _ _ K_SolutionModifier _ _ D (proj2 P)); [vm_compute; reflexivity|exact G].
Qed.
Lemma select_not_hidden err t x q : doc_tree err t x -> node_at x q K_SelectQuery -> ~ hidden x q.
Proof.
  intros D H (vc & [i ->] & Hv). destruct (kid_kinds _ _ _ _ _ _ _ D H Hv) as [K|(R & ER & K)]; [discriminate|]. injection ER as <-. apply kind_in_In in K. vm_compute in K. discriminate.
Qed.

(** ** assignments *)
Lemma in_with_prev l : forall prev o q, In (o, q) (with_prev prev l) <-> exists l1 l2, l = l1 ++ q :: l2 /\ o = match last_of l1 with Some e => Some e | None => prev end.
Proof.
  induction l as [|a l IH]; intros prev o q; cbn [with_prev].
  - split; [intros []|]. intros (l1 & l2 & E & _). destruct l1; discriminate.
  - cbn [In]. rewrite IH. split.
    + intros [[= <- <-]|(l1 & l2 & -> & ->)]; [exists [], l; split; reflexivity|]. exists (a :: l1), l2. split; [reflexivity|]. unfold last_of. cbn [rev]. destruct (rev l1) as [|z m]; reflexivity.
    + intros (l1 & l2 & E & ->). destruct l1 as [|b l1]; injection E as <- ->; [left; reflexivity|right]. exists l1, l2. split; [reflexivity|]. unfold last_of. cbn [rev]. destruct (rev l1) as [|z m]; reflexivity.
Qed.
Lemma last_of_snoc {A} (l : list A) e : last_of l = Some e -> exists m, l = m ++ [e].
Proof. unfold last_of. destruct (rev l) as [|z m] eqn:E; [discriminate|]. intros [= ->]. exists (rev m). apply (f_equal (@rev _)) in E. rewrite rev_involutive in E. exact E. Qed.
Lemma last_of_none {A} (l : list A) : last_of l = None -> l = [].
Proof. unfold last_of. destruct (rev l) as [|z m] eqn:E; [|discriminate]. intros _. apply (f_equal (@rev _)) in E. rewrite rev_involutive in E. exact E. Qed.
Lemma sorted_split (l1 l2 : list path) q : StronglySorted doc_before (l1 ++ q :: l2) -> (forall a, In a l1 -> doc_before a q) /\ (forall b, In b l2 -> doc_before q b).
Proof.
  induction l1 as [|a l1 IH]; cbn [app]; intros S; inversion S as [|? ? S' F]; subst; rewrite Forall_forall in F.
  - split; [intros _ []|exact F].
  - destruct (IH S') as [H1 H2]. split; [|exact H2]. intros b [<-|Hb]; [apply F, in_or_app; right; left; reflexivity|apply H1, Hb].
Qed.
(** the node children before and after a child *)
Lemma prev_spec x p q o : In (o, q) (with_prev None (child_nodes x p)) ->
  exists j k, q = p ++ [j] /\ node_at x q k /\ match o with Some e => exists i k', e = p ++ [i] /\ node_at x e k' /\ adjacent x p i j | None => forall i k', i < j -> ~ node_at x (p ++ [i]) k' end.
Proof.
  intros H. apply in_with_prev in H as (l1 & l2 & E & ->). pose proof (child_nodes_sorted x p) as S. rewrite E in S. destruct (sorted_split _ _ _ S) as [B A].
  assert (forall r, In r (child_nodes x p) <-> In r l1 \/ r = q \/ In r l2) as M by (intros r; rewrite E, in_app_iff; cbn [In]; split; intros [K|[K|K]]; auto).
  assert (In q (child_nodes x p)) as Hq by (apply M; auto). apply in_child_nodes in Hq as (j & k & -> & Hk). exists j, k. split; [reflexivity|]. split; [exact Hk|].
  assert (forall m k', node_at x (p ++ [m]) k' -> m < j -> In (p ++ [m]) l1) as Hl.
  { intros m k' Hm Hlt. assert (In (p ++ [m]) (child_nodes x p)) as Hin by (apply in_child_nodes; eauto). apply M in Hin as [K|[K|K]]; [exact K|apply app_one_inv in K as [_ K]; lia|]. apply A, before_child in K. lia. }
  destruct (last_of l1) as [e|] eqn:L.
  - apply last_of_snoc in L as (m & ->). assert (In e (child_nodes x p)) as He by (apply M; left; apply in_or_app; right; left; reflexivity).
    apply in_child_nodes in He as (i & k' & -> & Hk'). exists i, k'. split; [reflexivity|]. split; [exact Hk'|]. assert (i < j) as Hij by (eapply before_child, B, in_or_app; right; left; reflexivity). split; [exact Hij|].
    intros n k2 Hn Hnode. pose proof (Hl _ _ Hnode (proj2 Hn)) as Hin. rewrite <- app_assoc in S. cbn [app] in S. destruct (sorted_split _ _ _ S) as [B' _]. apply in_app_or in Hin as [Hin|[K|[]]]; [|apply app_one_inv in K as [_ K]; lia].
    apply B', before_child in Hin. lia.
  - apply last_of_none in L. subst l1. intros i k' Hij Hn. exact (Hl _ _ Hn Hij).
Qed.
Lemma in_prev x p j k : node_at x (p ++ [j]) k -> exists o, In (o, p ++ [j]) (with_prev None (child_nodes x p)).
Proof.
  intros H. assert (In (p ++ [j]) (child_nodes x p)) as Hin by (apply in_child_nodes; eauto). apply in_split in Hin as (l1 & l2 & E). eexists. apply in_with_prev. exists l1, l2. split; [exact E|reflexivity].
Qed.
Lemma adjacent_fun x p i i' j k k' : adjacent x p i j -> adjacent x p i' j -> node_at x (p ++ [i]) k -> node_at x (p ++ [i']) k' -> i = i'.
Proof. intros [L H] [L' H'] Hi Hi'. destruct (Nat.lt_trichotomy i i') as [K|[K|K]]; [exfalso; eapply H; [|exact Hi']; lia|exact K|exfalso; eapply H'; [|exact Hi]; lia]. Qed.
Lemma in_assignments x sc e v : In (e, v) (assignments x sc) <-> assigned x sc e v.
Proof.
  unfold assignments. rewrite in_flat_map. split.
  - intros ([o q] & Hin & K). apply filter_In in Hin as [Hin F]. cbn [fst snd after_expression] in *. unfold after_expression in F. cbn [fst] in F. apply andb_prop in F as [F1 F2]. destruct o as [e'|]; [|discriminate]. destruct K as [[= -> ->]|[]].
    apply prev_spec in Hin as (j & k & -> & Hk & i & k' & -> & Hk' & A). apply (kind_is_iff _ _ _ _ Hk) in F1. apply (kind_is_iff _ _ _ _ Hk') in F2. subst. exists i, j. auto.
  - intros (i & j & -> & -> & He & Hv & A). destruct (in_prev _ _ _ _ Hv) as [o Hin]. pose proof (prev_spec _ _ _ _ Hin) as (j' & k & Ej & _ & P). apply app_one_inv in Ej as [_ <-]. destruct o as [e|].
    + destruct P as (i' & k' & -> & Hk' & A'). assert (i = i') as <- by (eapply adjacent_fun; eassumption). exists (Some (sc ++ [i]), sc ++ [j]). split; [|left; reflexivity]. apply filter_In. split; [exact Hin|]. cbn [snd]. unfold after_expression. cbn [fst].
      rewrite (proj2 (kind_is_iff _ _ _ _ Hv) eq_refl), (proj2 (kind_is_iff _ _ _ _ He) eq_refl). reflexivity.
    + exfalso. exact (P i _ (proj1 A) He).
Qed.
Lemma in_selected x sc v : In v (selected_variables x sc) <-> selected x sc v.
Proof.
  unfold selected_variables. rewrite in_map_iff. split.
  - intros ([o q] & <- & Hin). cbn [snd]. apply filter_In in Hin as [Hin F]. cbn [snd] in F. apply andb_prop in F as [F1 F2]. apply negb_true_iff in F2. unfold after_expression in F2. cbn [fst] in F2.
    apply prev_spec in Hin as (j & k & -> & Hk & P). apply (kind_is_iff _ _ _ _ Hk) in F1. subst. split; [eauto|]. split; [exact Hk|]. intros e (i & j' & -> & Ej & He & _ & A). apply app_one_inv in Ej as [_ <-]. destruct o as [e'|].
    + destruct P as (i' & k' & -> & Hk' & A'). assert (i = i') as <- by (eapply adjacent_fun; eassumption). rewrite (proj2 (kind_is_iff _ _ _ _ He) eq_refl) in F2. discriminate.
    + exact (P i _ (proj1 A) He).
  - intros ([j ->] & Hv & Hn). destruct (in_prev _ _ _ _ Hv) as [o Hin]. exists (o, sc ++ [j]). split; [reflexivity|]. apply filter_In. split; [exact Hin|]. cbn [snd]. rewrite (proj2 (kind_is_iff _ _ _ _ Hv) eq_refl). cbn [andb]. apply negb_true_iff. unfold after_expression. cbn [fst].
    destruct o as [e|]; [|reflexivity]. destruct (kind_is x e K_Expression) eqn:K; [|reflexivity]. exfalso. apply prev_spec in Hin as (j' & k & Ej & _ & i & k' & -> & Hk' & A). apply app_one_inv in Ej as [_ <-].
    apply (kind_is_iff _ _ _ _ Hk') in K. subst. apply (Hn (sc ++ [i])). exists i, j. auto.
Qed.
Lemma with_prev_snd l : forall prev, map snd (with_prev prev l) = l.
Proof. induction l as [|a l IH]; intros prev; cbn [with_prev map snd]; [reflexivity|]. rewrite IH. reflexivity. Qed.
Lemma sorted_map_filter {A} (g : A -> path) (f : A -> bool) l : StronglySorted doc_before (map g l) -> StronglySorted doc_before (map g (filter f l)).
Proof.
  induction l as [|a l IH]; cbn [map filter]; intros S; [constructor|]. inversion S as [|? ? S' F]; subst. destruct (f a); [|apply IH, S']. cbn [map]. constructor; [apply IH, S'|].
  rewrite Forall_forall in *. intros b Hb. apply F. apply in_map_iff in Hb as (c & <- & Hc). apply filter_In in Hc as [Hc _]. apply in_map, Hc.
Qed.
Lemma selected_sorted x sc : StronglySorted doc_before (selected_variables x sc).
Proof. apply sorted_map_filter. rewrite with_prev_snd. apply child_nodes_sorted. Qed.
Lemma assignments_snd_sorted x sc : StronglySorted doc_before (map snd (assignments x sc)).
Proof.
  unfold assignments. match goal with |- context [filter ?f ?l] => pose proof (sorted_map_filter snd f l) as S; set (m := filter f l) in * end. rewrite with_prev_snd in S. specialize (S (child_nodes_sorted x sc)). clearbody m.
  induction m as [|[[e|] q] m IH]; [constructor| |].
  - inversion S as [|? ? S' F]; subst. cbn [flat_map app map fst snd]. constructor; [apply IH, S'|]. apply Forall_forall. intros b Hb. apply in_map_iff in Hb as ([e' b'] & <- & Hb). apply in_flat_map in Hb as ([[e2|] q2] & Hb & K); [|destruct K].
    destruct K as [[= <- <-]|[]]. rewrite Forall_forall in F. apply F. apply in_map_iff. exists (Some e2, q2). auto.
  - inversion S as [|? ? S' F]; subst. apply IH, S'.
Qed.
Lemma assigned_expr_fun x sc e v v' : assigned x sc e v -> assigned x sc e v' -> v = v'.
Proof.
  intros (i & j & -> & -> & _ & Hv & A & B) (i' & j' & E & -> & _ & Hv' & A' & B'). apply app_one_inv in E as [_ <-].
  destruct (Nat.lt_trichotomy j j') as [K|[K|K]]; [exfalso; exact (B' j _ (conj A K) Hv)|subst; reflexivity|exfalso; exact (B j' _ (conj A' K) Hv')].
Qed.
Lemma assigned_var_fun x sc e e' v : assigned x sc e v -> assigned x sc e' v -> e = e'.
Proof.
  intros (i & j & -> & -> & He & _ & A) (i' & j' & -> & E & He' & _ & A'). apply app_one_inv in E as [_ <-]. f_equal. f_equal. eapply adjacent_fun; eassumption.
Qed.

(** ** variables outside aggregates *)
Lemma in_imap_rev (f : tree -> list path) cs p : In p (concat (rev (imap (fun i c => map (cons i) (f c)) 0 cs))) <-> exists j c q, nth_error cs j = Some c /\ p = j :: q /\ In q (f c).
Proof.
  rewrite in_concat. split.
  - intros (l & Hl & Hp). apply in_rev in Hl. apply in_imap in Hl as (j & c & E & ->). apply in_map_iff in Hp as (q & <- & Hq). exists j, c, q. auto.
  - intros (j & c & q & E & -> & H). exists (map (cons j) (f c)). split; [apply in_rev; rewrite rev_involutive; apply in_imap; exists j, c; auto|]. apply in_map, H.
Qed.
Lemma in_unaggregated y : forall r, In r (unaggregated y) <-> variable y r /\ forall a b, r = a ++ b -> ~ node_at y a K_Aggregate.
Proof.
  induction y as [k w|k cs IH] using tree_ind'; intros r; cbn [unaggregated].
  - split; [intros []|]. intros [[cs H] _]. destruct r; discriminate.
  - rewrite in_app_iff. split.
    + intros [H|H].
      * destruct (kind_eqb_spec k K_Var) as [->|]; [|destruct H]. destruct H as [<-|[]]. split; [exists cs; reflexivity|]. intros a b E. symmetry in E. apply app_eq_nil in E as [-> ->]. intros [ds K]. discriminate.
      * destruct (kind_eqb_spec k K_Aggregate) as [->|Na]; [destruct H|]. apply in_imap_rev in H as (j & c & q & E & -> & H). apply (nth_error_Forall _ _ _ _ IH E) in H as [[ds Hv] Hn]. split; [exists ds; cbn; rewrite E; exact Hv|].
        intros a b Eab. destruct a as [|i a]; cbn in Eab; [intros [es K]; injection K as -> _; congruence|]. injection Eab as <- ->. intros [es K]. cbn in K. rewrite E in K. apply (Hn a b eq_refl). exists es. exact K.
    + intros [[ds Hv] Hn]. destruct r as [|i q].
      * left. cbn in Hv. injection Hv as -> _. rewrite kind_eqb_refl. left. reflexivity.
      * right. destruct (kind_eqb_spec k K_Aggregate) as [->|Na]; [exfalso; apply (Hn [] (i :: q) eq_refl); exists cs; reflexivity|]. cbn in Hv. destruct (nth_error cs i) as [c|] eqn:E; [|discriminate].
        apply in_imap_rev. exists i, c, q. split; [exact E|]. split; [reflexivity|]. apply (nth_error_Forall _ _ _ _ IH E). split; [exists ds; exact Hv|]. intros a b -> [es K]. apply (Hn (i :: a) b eq_refl). exists es. cbn. rewrite E. exact K.
Qed.
Lemma in_unaggregated_at x e y u : at_path x e = Some y -> In u (unaggregated_at x e) <-> unaggregated_in x e u.
Proof.
  intros E. unfold unaggregated_at. rewrite E, in_map_iff. split.
  - intros (r & <- & H). apply in_unaggregated in H as [[cs H] Hn]. split; [exists r; reflexivity|]. split; [exists cs; rewrite at_path_app, E; exact H|]. intros a [a' ->] [b Eb] [ds K]. rewrite <- app_assoc in Eb. apply app_inv_head in Eb.
    apply (Hn _ _ Eb). exists ds. rewrite at_path_app, E in K. exact K.
  - intros ([r ->] & [cs H] & Hn). exists r. split; [reflexivity|]. apply in_unaggregated. rewrite at_path_app, E in H. split; [exists cs; exact H|]. intros a b -> [ds K]. apply (Hn (e ++ a)); [exists a; reflexivity|exists b; rewrite app_assoc; reflexivity|].
    exists ds. rewrite at_path_app, E. exact K.
Qed.
Lemma NoDup_app {A} (l m : list A) : NoDup l -> NoDup m -> (forall a, In a l -> ~ In a m) -> NoDup (l ++ m).
Proof. induction 1 as [|a l H _ IH]; intros Hm Hd; [exact Hm|]. cbn. constructor; [rewrite in_app_iff; intros [K|K]; [exact (H K)|exact (Hd a (or_introl eq_refl) K)]|]. apply IH; [exact Hm|]. intros b Hb. apply Hd. right. exact Hb. Qed.
Lemma NoDup_map_inj {A B} (f : A -> B) l : (forall a b, f a = f b -> a = b) -> NoDup l -> NoDup (map f l).
Proof. intros I. induction 1 as [|a l H _ IH]; cbn; constructor; [|exact IH]. intros K. apply in_map_iff in K as (b & E & Hb). apply I in E. subst. exact (H Hb). Qed.
Lemma unaggregated_NoDup y : NoDup (unaggregated y).
Proof.
  induction y as [k w|k cs IH] using tree_ind'; cbn [unaggregated]; [constructor|]. assert (forall m, NoDup (concat (rev (imap (fun i c => map (cons i) (unaggregated c)) m cs)))) as N.
  { induction IH as [|c cs Hc _ IHl]; intros m; [constructor|]. cbn [imap rev]. rewrite concat_app. cbn [concat]. rewrite app_nil_r. apply NoDup_app; [apply IHl|apply NoDup_map_inj; [intros a b [= ->]; reflexivity|exact Hc]|].
    intros a Ha Hb. apply in_map_iff in Hb as (q & <- & _). apply in_concat in Ha as (l & Hl & Ha). apply in_rev in Hl. apply in_imap in Hl as (j & c' & _ & ->). apply in_map_iff in Ha as (q' & E & _). injection E as E _. lia. }
  destruct (kind_eqb k K_Var); cbn [app]; [|destruct (kind_eqb k K_Aggregate); [constructor|apply N]]. destruct (kind_eqb k K_Aggregate); [constructor; [intros []|constructor]|]. constructor; [|apply N].
  intros K. apply in_imap_rev in K as (j & c & q & _ & E & _). discriminate.
Qed.
Lemma NoDup_filter {A} (f : A -> bool) l : NoDup l -> NoDup (filter f l).
Proof. induction 1 as [|a l H _ IH]; cbn; [constructor|]. destruct (f a); [|exact IH]. constructor; [|exact IH]. intros K. apply filter_In in K. tauto. Qed.

