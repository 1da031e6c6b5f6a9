(** Automatic fixes of prefixes: several declarations are taken out of the text at once. *)
From Coq Require Import String List Arith NArith Bool Lia Sorted.
Import ListNotations.
From Verif Require Import ServerModel Kinds KindFacts ParserSyntax ParserModel GrammarData ParserTree ParserTerm ParserBuild ParserSpec ParserChecks ParserOutcome ParserProps
  TextModel TextSpec TextProofs Utf8Model LexerRegex LexerData LexerModel LexerProofs LexerSpec LexerProps FormatData FormatModel FormatTree FormatText FormatParse FormatWeave
  TreeModel TreePlace TreeShape TreeRename VarModel VarSpec VarRegions VarDoc LexRename VarProps DiagModel DiagSpec AstFacts DiagFacts DiagGroup DiagRest ParseTreeProps LexLayout DiagProps OnTypeProofs OnTypeProps LayoutProps LexInsert PrologueRun PrologueSwap QuickFixModel QuickFixFacts CoverFacts RemoveFacts DeclCount QuickFixProps RemoveProps.


(** the members of [l], numbered from [i], whose numbers are not in [rem] *)
Fixpoint keep {A} (rem : list nat) (i : nat) (l : list A) : list A :=
  match l with [] => [] | c :: l => if existsb (Nat.eqb i) rem then keep rem (S i) l else c :: keep rem (S i) l end.
Lemma keep_none {A} (l : list A) : forall i, keep [] i l = l.
Proof. induction l as [|c l IH]; intros i; [reflexivity|]. cbn. rewrite IH. reflexivity. Qed.
Lemma keep_behind {A} j rem (l : list A) : forall i, j < i -> keep (j :: rem) i l = keep rem i l.
Proof. induction l as [|c l IH]; intros i H; [reflexivity|]. cbn [keep existsb]. rewrite (proj2 (Nat.eqb_neq i j)) by lia. cbn [orb]. rewrite IH by lia. reflexivity. Qed.
Lemma keep_map {A B} (f : A -> B) rem l : forall i, keep rem i (map f l) = map f (keep rem i l).
Proof. induction l as [|c l IH]; intros i; [reflexivity|]. cbn [map keep]. rewrite IH. destruct (existsb _ _); reflexivity. Qed.
Lemma keep_forall2 {A B} (R : A -> B -> Prop) rem a b : Forall2 R a b -> forall i, Forall2 R (keep rem i a) (keep rem i b).
Proof. induction 1 as [|x y a b H _ IH]; intros i; [constructor|]. cbn [keep]. destruct (existsb _ _); [apply IH|constructor; [exact H|apply IH]]. Qed.
Definition blank_end (L : list lexeme) : Prop := L = [] \/ exists L0 w, L = L0 ++ [(K_WHITESPACE, w)].
Lemma blank_end_cut A B : blank_end (A ++ B) -> blank_end B.
Proof.
  intros [H|(L0 & w & H)]; [apply app_eq_nil in H as [_ ->]; left; reflexivity|]. destruct B as [|b B _] using rev_ind; [left; reflexivity|]. right. rewrite app_assoc in H. apply app_inj_tail in H as [_ ->]. eauto.
Qed.
(** ** the tokens that are left *)
Lemma tokens_kept err R rem : forall Cs DLs acc t i DA, lex err t = acc ++ concat Cs ++ R -> (exists ya, Forall2 declaration DA ya) -> sigs acc = concat DA ->
  Forall2 (fun C dl => sigs C = dl) Cs DLs -> (exists ys, Forall2 declaration DLs ys) ->
  (forall j, existsb (Nat.eqb (i + j)) rem = true -> j < length Cs -> blank_end (acc ++ concat (firstn j Cs))) ->
  tokens err (flat_map snd acc ++ flat_map snd (concat (keep rem i Cs)) ++ flat_map snd R) = concat DA ++ concat (keep rem i DLs) ++ sigs R.
Proof.
  induction Cs as [|C Cs IH]; intros DLs acc t i DA E Ha Sa F Hd Bl; inversion F as [|? dl ? DLs' HC F']; subst.
  - cbn [concat app keep flat_map] in *. rewrite <- flat_map_app. change (tokens err (flat_map snd (acc ++ R))) with (sigs (lex err (flat_map snd (acc ++ R)))). rewrite (lex_suffix err t [] (acc ++ R) E), PrologueSwap.sigs_app, Sa. reflexivity.
  - destruct Hd as [ys Hd]. inversion Hd as [|? y ? ys' Hy Hd']; subst. cbn [concat] in E. rewrite <- app_assoc in E. cbn [keep]. destruct (existsb (Nat.eqb i) rem) eqn:Er.
    + destruct Ha as [ya Ha]. assert (B0 : blank_end acc). { specialize (Bl 0). rewrite Nat.add_0_r in Bl. cbn [firstn concat length] in Bl. rewrite app_nil_r in Bl. apply Bl; [exact Er|lia]. }
      rewrite (relex_front err t acc _ _ DA ya E Ha Sa B0), Sa. f_equal.
      apply (IH DLs' [] (flat_map snd (concat Cs ++ R)) (S i) []); [|exists []; constructor|reflexivity|exact F'|eauto|].
      * cbn [app]. apply (lex_suffix err t (acc ++ C)). rewrite <- app_assoc. exact E.
      * intros j Hj Lj. apply (blank_end_cut (acc ++ C)). cbn [app]. rewrite <- app_assoc. apply (Bl (S j)); [replace (i + S j) with (S i + j) by lia; exact Hj|cbn; lia].
    + cbn [concat]. assert (X : forall V W, flat_map snd acc ++ flat_map snd (C ++ V) ++ W = flat_map snd (acc ++ C) ++ flat_map snd V ++ W) by (intros V W; rewrite !flat_map_app, <- !app_assoc; reflexivity).
      refine (eq_trans (f_equal (tokens err) (X _ _)) _). rewrite <- app_assoc, (app_assoc (concat DA)).
      replace (concat DA ++ sigs C) with (concat (DA ++ [sigs C])) by (rewrite concat_app; cbn [concat]; rewrite app_nil_r; reflexivity).
      apply (IH DLs' (acc ++ C) t (S i) (DA ++ [sigs C])); [rewrite <- app_assoc; exact E| | |exact F'|eauto|].
      * destruct Ha as [ya Ha]. exists (ya ++ [y]). apply Forall2_app; [exact Ha|constructor; [exact Hy|constructor]].
      * rewrite PrologueSwap.sigs_app, Sa, concat_app. cbn [concat]. rewrite app_nil_r. reflexivity.
      * intros j Hj Lj. rewrite <- app_assoc. apply (Bl (S j)); [replace (i + S j) with (S i + j) by lia; exact Hj|cbn; lia].
Qed.
(** ** the text that is left *)
Section spliced.
Context (off : nat -> nat).
Definition cut (j : nat) : cedit := mkcedit (off j) (off (S j)) [].
Lemma splice_kept (T : text) : forall (Cs : list text) i acc rem at_, StronglySorted lt rem -> (forall j, In j rem -> i <= j < i + length Cs) -> off i = at_ + length acc -> (forall k C, nth_error Cs k = Some C -> off (S (i + k)) = off (i + k) + length C) ->
  splice at_ (acc ++ concat Cs ++ T) (map cut rem) = acc ++ concat (keep rem i Cs) ++ T.
Proof.
  induction Cs as [|C Cs IH]; intros i acc rem at_ St Hr Ho Hn.
  - destruct rem as [|j rem]; [reflexivity|]. specialize (Hr j (or_introl eq_refl)). cbn in Hr. lia.
  - pose proof (Hn 0 C eq_refl) as H0. rewrite Nat.add_0_r in H0. assert (Hn' : forall k C', nth_error Cs k = Some C' -> off (S (S i + k)) = off (S i + k) + length C') by (intros k C' E; specialize (Hn (S k) C' E); rewrite Nat.add_succ_r in Hn; exact Hn).
    cbn [concat]. rewrite <- app_assoc. destruct rem as [|j rem].
    + rewrite keep_none. cbn [map splice concat]. rewrite <- app_assoc. reflexivity.
    + inversion St as [|? ? St' Fj]; subst. rewrite Forall_forall in Fj. destruct (Nat.eq_dec j i) as [->|Nj].
      * cbn [map splice cut ci cj cnew keep existsb]. rewrite Nat.eqb_refl. cbn [orb app]. replace (off i - at_) with (length acc) by lia. rewrite firstn_exact. f_equal. replace (off (S i) - at_) with (length (acc ++ C)) by (rewrite app_length; lia). rewrite app_assoc, skipn_exact.
        rewrite keep_behind by lia. apply (IH (S i) [] rem (off (S i))); [exact St'| |cbn; lia|exact Hn'].
        intros k Hk. specialize (Fj k Hk). specialize (Hr k (or_intror Hk)). cbn [length] in Hr. lia.
      * assert (Er : existsb (Nat.eqb i) (j :: rem) = false). { apply not_true_iff_false. intros H. apply existsb_exists in H as (k & Hk & H). apply Nat.eqb_eq in H. subst k. destruct Hk as [->|Hk]; [congruence|]. specialize (Fj i Hk). specialize (Hr j (or_introl eq_refl)). lia. }
        cbn [keep]. rewrite Er. cbn [concat]. rewrite <- app_assoc, !(app_assoc acc). apply (IH (S i) (acc ++ C)); [exact St| |rewrite app_length; lia|exact Hn'].
        intros k Hk. pose proof (Hr k Hk) as Hk'. cbn [length] in Hk'. assert (k <> i); [|lia]. intros ->. apply not_true_iff_false in Er. apply Er. apply existsb_exists. exists i. split; [exact Hk|apply Nat.eqb_refl].
Qed.
End spliced.
(** ** a text that starts with declarations *)
Lemma chunks DLs : forall ys L rest, Forall2 declaration DLs ys -> sigs L = concat DLs ++ rest -> rest <> [] -> match L with l :: _ => trivial l = false | [] => True end ->
  exists Cs R, L = concat Cs ++ R /\ Forall2 (fun C dl => sigs C = dl) Cs DLs /\ sigs R = rest /\ (forall C, In C Cs -> match C with l :: _ => trivial l = false | [] => False end) /\ match R with l :: _ => trivial l = false | [] => False end.
Proof.
  induction DLs as [|dl DLs IH]; intros ys L rest F E N Hl; inversion F as [|? y ? ys' Hd F']; subst.
  - exists [], L. cbn [concat app] in *. split; [reflexivity|]. split; [constructor|]. split; [exact E|]. split; [intros C []|]. destruct L; [cbn in E; congruence|exact Hl].
  - cbn [concat] in E. rewrite <- app_assoc in E. destruct (sigs_split _ _ _ E) as (L1 & L2 & -> & S1 & S2). destruct (split_trivial L2) as (T & L3 & -> & FT & HL3).
    assert (sigs T = []) as ST. { clear -FT. induction FT as [|l T H _ IH]; [reflexivity|]. unfold sigs. cbn [filter]. rewrite H. exact IH. }
    assert (S3 : sigs L3 = concat DLs ++ rest) by (rewrite PrologueSwap.sigs_app, ST in S2; exact S2).
    destruct (IH ys' L3 rest F' S3 N HL3) as (Cs & R & -> & FC & SR & HC & HR). exists ((L1 ++ T) :: Cs), R. cbn [concat]. split; [rewrite <- !app_assoc; reflexivity|]. split; [constructor; [rewrite PrologueSwap.sigs_app, ST, app_nil_r; exact S1|exact FC]|]. split; [exact SR|]. split; [|exact HR].
    intros C [<-|H]; [|exact (HC C H)]. destruct L1 as [|l L1]; [|exact Hl]. exfalso. destruct Hd; discriminate S1.
Qed.
Lemma sig_cut A : forall A' B B', A ++ B = A' ++ B' -> sigs A = sigs A' -> match B with l :: _ => trivial l = false | [] => False end -> match B' with l :: _ => trivial l = false | [] => False end -> A = A' /\ B = B'.
Proof.
  induction A as [|a A IH]; intros A' B B' E S HB HB'.
  - destruct A' as [|a' A']; [auto|]. cbn [app] in E. subst B. exfalso. unfold sigs in S. cbn [filter] in S. rewrite HB in S. discriminate.
  - destruct A' as [|a' A']; [exfalso; cbn [app] in E; subst B'; unfold sigs in S; cbn [filter] in S; rewrite HB' in S; discriminate|]. cbn [app] in E. injection E as <- E. unfold sigs in S. cbn [filter] in S.
    assert (sigs A = sigs A') as S' by (destruct (trivial a); cbn [negb] in S; [exact S|injection S as S; exact S]). destruct (IH A' B B' E S' HB HB') as [-> ->]. auto.
Qed.
(** ** the prologue is exchanged *)
Lemma decls_changed err t t' x errs DLs ys DLs' ys' rest : doc_parse err t x errs -> query_doc x -> Forall2 declaration DLs ys -> Forall2 declaration DLs' ys' ->
  tokens err t = concat DLs ++ rest -> tokens err t' = concat DLs' ++ rest ->
  (DLs = [] \/ DLs' <> [] -> exists x' errs', doc_parse err t' x' errs') /\
  forall x' errs', doc_parse err t' x' errs' -> query_doc x' /\ exists z, bare same x = with_decls ys z /\ bare same x' = with_decls ys' z /\ errors_shifted err t t' (length (concat DLs)) (length (concat DLs')) errs errs'.
Proof.
  intros P Q F F' Et Et'.
  assert (G : DLs = [] \/ DLs' <> [] -> exists x' errs' z, doc_parse err t' x' errs' /\ bare same x = with_decls ys z /\ bare same x' = with_decls ys' z /\ errors_shifted err t t' (length (concat DLs)) (length (concat DLs')) errs errs').
  { intros H. destruct DLs as [|dl DLs].
    - inversion F; subst ys. cbn [concat app] in Et. destruct (decls_put err t' t x errs DLs' ys' P Q F') as (x' & errs' & P' & _ & B & Es); [rewrite Et; exact Et'|]. exists x', errs', (bare same x). auto.
    - destruct H as [H|H]; [discriminate|]. assert (ys <> []) by (inversion F; discriminate). assert (ys' <> []) by (intros ->; inversion F'; congruence).
      destruct (decls_swapped err t t' x errs _ ys DLs' ys' rest P Q F F') as (x' & errs' & z & P' & _ & B1 & B2 & Es); [assumption|assumption|exact Et|exact Et'|]. exists x', errs', z. auto. }
  split; [intros H; destruct (G H) as (x' & errs' & _ & P' & _); eauto|]. intros x' errs' P'.
  assert (Q' : query_doc x') by (eapply (swapped_query err t t' x errs x' errs' DLs ys rest DLs'); eauto). split; [exact Q'|].
  destruct DLs' as [|dl' DLs'].
  - inversion F'; subst ys'. cbn [concat app] in Et'. destruct (decls_put err t t' x' errs' DLs ys P' Q' F) as (x2 & errs2 & P2 & _ & B & Es); [rewrite Et'; exact Et|]. destruct (doc_parse_fun _ _ _ _ _ _ P P2) as [<- <-]. exists (bare same x'). split; [exact B|]. split; [reflexivity|]. apply errors_shifted_sym, Es.
  - destruct G as (x2 & errs2 & z & P2 & H); [right; discriminate|]. destruct (doc_parse_fun _ _ _ _ _ _ P' P2) as [<- <-]. eauto.
Qed.
(** ** the prefixes that have not come up before *)
Fixpoint news {A} (seen : list text) (l : list (A * text)) : list (A * text) :=
  match l with [] => [] | (a, w) :: l => if mem w seen then news seen l else (a, w) :: news (w :: seen) l end.
Fixpoint after {A} (seen : list text) (l : list (A * text)) : list text :=
  match l with [] => seen | (_, w) :: l => if mem w seen then after seen l else after (w :: seen) l end.
Lemma in_after {A} (l : list (A * text)) : forall seen w, In w (after seen l) <-> In w seen \/ In w (map snd l).
Proof.
  induction l as [|[a v] l IH]; intros seen w; cbn [after map snd In]; [tauto|]. destruct (mem v seen) eqn:M; rewrite IH; [|cbn [In]; tauto]. apply mem_iff in M. split; [tauto|]. intros [H|[<-|H]]; tauto.
Qed.
Lemma news_in {A} (l : list (A * text)) : forall seen w, In w (map snd (news seen l)) <-> In w (map snd l) /\ ~ In w seen.
Proof.
  induction l as [|[a v] l IH]; intros seen w; cbn [news map snd In]; [tauto|]. destruct (mem v seen) eqn:M.
  - apply mem_iff in M. rewrite IH. split; [tauto|]. intros [[<-|H] N]; tauto.
  - apply mem_false in M. cbn [map snd In]. rewrite IH. cbn [In]. split; [intros [<-|[H N]]; tauto|]. intros [[<-|H] N]; [auto|]. destruct (list_eq_dec N.eq_dec v w) as [->|Nv]; [auto|]. right. split; [exact H|]. intros [?|?]; [congruence|contradiction].
Qed.
Lemma news_sub {A} (l : list (A * text)) : forall seen y, In y (news seen l) -> In y l.
Proof. induction l as [|[a v] l IH]; intros seen y; cbn [news]; [intros []|]. destruct (mem v seen); [right; eapply IH; eassumption|]. intros [<-|H]; [left; reflexivity|right; eapply IH; eassumption]. Qed.
Lemma news_nodup {A} (l : list (A * text)) : forall seen, NoDup (map snd (news seen l)).
Proof. induction l as [|[a v] l IH]; intros seen; cbn [news]; [constructor|]. destruct (mem v seen); [apply IH|]. cbn [map snd]. constructor; [|apply IH]. rewrite news_in. cbn [In]. tauto. Qed.
(** the first of each prefix *)
Lemma news_first {A} (R : A -> A -> Prop) (l : list (A * text)) : (forall a b, R a b -> ~ R b a) -> (forall a, ~ R a a) -> StronglySorted R (map fst l) -> forall seen a w, In (a, w) (news seen l) <-> In (a, w) l /\ ~ In w seen /\ forall b, In (b, w) l -> b = a \/ R a b.
Proof.
  intros As Ir. induction l as [|[c v] l IH]; intros St seen a w; cbn [news map fst] in *; [cbn; tauto|]. inversion St as [|? ? St' Fc]; subst. rewrite Forall_forall in Fc. specialize (IH St').
  assert (Fc' : forall b u, In (b, u) l -> R c b) by (intros b u H; apply Fc; apply (in_map fst) in H; exact H).
  destruct (mem v seen) eqn:M.
  - apply mem_iff in M. rewrite IH. cbn [In]. split.
    + intros (H & N & F). split; [auto|]. split; [exact N|]. intros b [X|X]; [injection X as -> ->; contradiction|auto].
    + intros ([X|H] & N & F); [injection X as -> ->; contradiction|]. split; [exact H|]. split; [exact N|]. intros b Hb. apply F. right. exact Hb.
  - apply mem_false in M. cbn [In]. rewrite IH. cbn [In]. split.
    + intros [X|(H & N & F)].
      * injection X as -> ->. split; [auto|]. split; [exact M|]. intros b [X|X]; [injection X as ->; auto|right; eapply Fc'; exact X].
      * split; [auto|]. split; [tauto|]. intros b [X|X]; [injection X as -> ->; exfalso; apply N; auto|auto].
    + intros ([X|H] & N & F); [left; exact X|]. right. destruct (list_eq_dec N.eq_dec v w) as [->|Nv].
      * exfalso. destruct (F c (or_introl eq_refl)) as [->|Hr]; [exact (Ir _ (Fc' _ _ H))|exact (As _ _ Hr (Fc' _ _ H))].
      * split; [exact H|]. split; [intros [?|?]; [congruence|contradiction]|]. intros b Hb. apply F. right. exact Hb.
Qed.
Lemma news_sorted {A} (R : A -> A -> Prop) (l : list (A * text)) : StronglySorted R (map fst l) -> forall seen, StronglySorted R (map fst (news seen l)).
Proof.
  induction l as [|[c v] l IH]; intros St seen; cbn [news map fst] in *; [constructor|]. inversion St as [|? ? St' Fc]; subst. destruct (mem v seen); [auto|]. cbn [map fst]. constructor; [auto|]. apply Forall_forall. intros b Hb. rewrite Forall_forall in Fc. apply in_map_iff in Hb as ([b' u] & <- & Hb). apply news_sub in Hb. apply Fc. apply (in_map fst) in Hb. exact Hb.
Qed.
Definition named {A} (l : list (A * ddata)) : list (A * text) := flat_map (fun pd => match snd pd with DString w => [(fst pd, w)] | _ => [] end) l.
Lemma in_named {A} (l : list (A * ddata)) a w : In (a, w) (named l) <-> In (a, DString w) l.
Proof.
  unfold named. rewrite in_flat_map. split.
  - intros ([b d] & Hin & H). cbn [fst snd] in H. destruct d; try (destruct H; fail). destruct H as [H|[]]. injection H as -> ->. exact Hin.
  - intros H. exists (a, DString w). split; [exact H|left; reflexivity].
Qed.
Lemma named_sorted {A} (R : A -> A -> Prop) (l : list (A * ddata)) : StronglySorted R (map fst l) -> StronglySorted R (map fst (named l)).
Proof.
  induction l as [|[c d] l IH]; intros St; cbn [map fst] in *; [constructor|]. inversion St as [|? ? St' Fc]; subst. unfold named. cbn [flat_map]. fold (@named A). change (flat_map _ l) with (named l). rewrite map_app.
  assert (F : Forall (R c) (map fst (named l))). { apply Forall_forall. intros b Hb. rewrite Forall_forall in Fc. apply in_map_iff in Hb as ([b' u] & <- & Hb). apply in_named in Hb. apply Fc. apply (in_map fst) in Hb. exact Hb. }
  cbn [snd fst]. destruct d; cbn [map app]; auto. constructor; auto.
Qed.
(** ** the edits *)
Section auto_runs.
Context (find : text -> option text) (am ru : bool) (x : tree) (t : text) (g : path -> text_edit).
Lemma auto_unused tl : forall l d1, Forall2 (fun pd d => d_code d = UnusedPrefix /\ d_data d = snd pd /\ (ru = true -> forall w, snd pd = DString w -> remove_prefix_declaration x t (d_range d) = VDone [g (fst pd)])) l d1 ->
  (forall pd, In pd l -> match snd pd with DString _ | NoData => True | _ => False end) -> forall seen,
  auto_fixes find am ru x t seen (d1 ++ tl) = (let! r := auto_fixes find am ru x t (after seen (named l)) tl in VDone ((if ru then map (fun pw => g (fst pw)) (news seen (named l)) else []) ++ r)).
Proof.
  induction 1 as [|[p dat] d l d1 (Hc & Hd & Hr) _ IH]; intros K seen.
  - cbn [app named flat_map after news map]. destruct (auto_fixes find am ru x t seen tl); cbn [vbind]; try reflexivity. destruct ru; reflexivity.
  - assert (K' : forall pd, In pd l -> match snd pd with DString _ | NoData => True | _ => False end) by (intros; apply K; right; assumption). specialize (IH K'). pose proof (K _ (or_introl eq_refl)) as K0. cbn [fst snd app] in *. cbn [auto_fixes]. rewrite Hd. destruct dat as [| |w|]; try (destruct K0; fail); [exact (IH seen)|].
    change (named ((p, DString w) :: l)) with ((p, w) :: named l). cbn [after news]. destruct (mem w seen); [exact (IH seen)|]. rewrite Hc, IH. destruct ru; cbn [vbind].
    + rewrite (Hr eq_refl w eq_refl). cbn [vbind]. destruct (auto_fixes find am true x t _ tl); reflexivity.
    + destruct (auto_fixes find am false x t _ tl); reflexivity.
Qed.
Definition insertion (w : text) : list text_edit := match find w with Some ns => [mkedit origin (declaration_text w ns)] | None => [] end.
Lemma auto_undeclared tl : forall (l : list (path * ddata)) d2, Forall2 (fun pd d => d_code d = UndeclaredPrefix /\ d_data d = snd pd) l d2 ->
  (forall pd, In pd l -> match snd pd with DString _ | NoData => True | _ => False end) -> forall seen,
  auto_fixes find am ru x t seen (d2 ++ tl) = (let! r := auto_fixes find am ru x t (after seen (named l)) tl in VDone ((if am then flat_map (fun pw => insertion (snd pw)) (news seen (named l)) else []) ++ r)).
Proof.
  induction 1 as [|[p dat] d l d1 (Hc & Hd) _ IH]; intros K seen.
  - cbn [app named flat_map after news]. destruct (auto_fixes find am ru x t seen tl); cbn [vbind]; try reflexivity. destruct am; reflexivity.
  - assert (K' : forall pd, In pd l -> match snd pd with DString _ | NoData => True | _ => False end) by (intros; apply K; right; assumption). specialize (IH K'). pose proof (K _ (or_introl eq_refl)) as K0. cbn [fst snd app] in *. cbn [auto_fixes]. rewrite Hd. destruct dat as [| |w|]; try (destruct K0; fail); [exact (IH seen)|].
    change (named ((p, DString w) :: l)) with ((p, w) :: named l). cbn [after news]. destruct (mem w seen); [exact (IH seen)|]. rewrite Hc, IH. cbn [vbind]. destruct am; cbn [declare_prefix flat_map snd app].
    + unfold insertion at 2. destruct (find w); destruct (auto_fixes find true ru x t _ tl); reflexivity.
    + destruct (auto_fixes find false ru x t _ tl); reflexivity.
Qed.
Lemma auto_others : forall d3, Forall (fun d => d_code d <> UnusedPrefix /\ d_code d <> UndeclaredPrefix) d3 -> forall seen, auto_fixes find am ru x t seen d3 = VDone [].
Proof.
  induction 1 as [|d d3 [N1 N2] _ IH]; intros seen; [reflexivity|]. cbn [auto_fixes]. destruct (d_data d); try apply IH. destruct (mem w seen); [apply IH|]. rewrite IH. destruct (d_code d); try congruence; reflexivity.
Qed.
End auto_runs.
(** ** the order of declarations *)
Lemma before_order q q' : doc_before q q' -> forall x y y', at_path x q = Some y -> at_path x q' = Some y' -> (exists m, leaves_before x q' = leaves_before x q ++ leaves y ++ m) \/ exists i r, q' = q ++ i :: r.
Proof.
  induction 1 as [i j p q L|i p q _ IH|i p]; intros x y y' E E'.
  - left. destruct x as [k w|k cs]; [discriminate|]. cbn [at_path leaves_before] in *. destruct (nth_error cs i) as [c|] eqn:Ci; [|discriminate]. destruct (leaves_around c p y E) as [A _].
    apply nth_error_split in Ci as (l1 & l2 & -> & <-). rewrite (firstn_exact l1). rewrite (firstn_app j l1), (firstn_all2 l1) by lia. replace (j - length l1) with (S (j - length l1 - 1)) by lia. cbn [firstn]. rewrite flat_map_app. cbn [flat_map].
    rewrite A. eexists. rewrite <- !app_assoc. reflexivity.
  - destruct x as [k w|k cs]; [discriminate|]. cbn [at_path leaves_before] in *. destruct (nth_error cs i) as [c|] eqn:Ci; [|discriminate]. destruct (IH c y y' E E') as [[m Em]|(j & r & ->)]; [left|right; exists j, r; reflexivity]. exists m. rewrite Em, <- !app_assoc. reflexivity.
  - right. exists i, p. reflexivity.
Qed.
