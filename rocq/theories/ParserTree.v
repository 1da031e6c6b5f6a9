(** Tree-producing reading of the parser (used in proofs only) and its equivalence with
    the event machine of ParserModel.v. *)
From Coq Require Import List Arith Bool Lia.
Import ListNotations.
From Verif Require Import Kinds ParserSyntax ParserModel.

(** raw parse trees: what the event list spells *)
Inductive ptree :=
| PLeaf (k : kind)
| PNode (k : kind) (ts : list ptree)
| PErr (expected : list kind).

Fixpoint flat (t : ptree) : list event :=
  match t with
  | PLeaf _ => [Advance]
  | PNode k ts => Open k :: flat_map flat ts ++ [Close]
  | PErr e => [Error e]
  end.
Definition flats (ts : list ptree) : list event := flat_map flat ts.

Definition look (rest : list kind) : kind := match rest with k :: _ => k | [] => K_Eof end.

(** forest produced, remaining tokens, remaining fuel *)
Definition out := (list ptree * list kind * nat)%type.

Definition tnth (rest : list kind) (f : nat) : res (kind * nat) :=
  match f with 0 => PanicStuck | S f => Ok (look rest, f) end.
Definition tadvance (rest : list kind) : res (kind * list kind) :=
  match rest with [] => PanicAssert | k :: r => Ok (k, r) end.
Definition texpect (k : kind) (rest : list kind) (f : nat) : res out :=
  let* (c, f) := tnth rest f in
  if kind_eqb c k then let* (c, rest) := tadvance rest in Ok ([PLeaf c], rest, max_fuel)
  else Ok ([PErr [k]], rest, f).
Definition tawe (e : list kind) (rest : list kind) (f : nat) : res out :=
  let* (c, f) := tnth rest f in
  if kind_in c recovery_tokens then Ok ([PErr e], rest, f)
  else let* (c, rest) := tadvance rest in Ok ([PErr e; PNode K_Error [PLeaf c]], rest, max_fuel).
Fixpoint tskip_junk (gas : nat) (stop : list kind) (rest : list kind) (f : nat) : res out :=
  match gas with
  | 0 => NoGas
  | S g =>
    let* (c, f) := tnth rest f in
    if kind_in c stop then Ok ([], rest, f)
    else match rest with
         | [] => Ok ([], rest, f)
         | k :: r => let* (ts, rest, f) := tskip_junk g stop r max_fuel in Ok (PLeaf k :: ts, rest, f)
         end
  end.
Definition terror_until (gas : nat) (e stop : list kind) (rest : list kind) (f : nat) : res out :=
  let* (c, f) := tnth rest f in
  if kind_in c stop || match rest with [] => true | _ => false end then Ok ([PErr e], rest, f)
  else let* (ts, rest, f) := tskip_junk gas stop rest f in Ok ([PErr e; PNode K_Error ts], rest, f).
Fixpoint tskip_rest (gas : nat) (rest : list kind) (f : nat) : res out :=
  match gas with
  | 0 => NoGas
  | S g =>
    let* (c, f) := tnth rest f in
    if kind_eqb c K_Eof then Ok ([], rest, f)
    else let* (k, r) := tadvance rest in
         let* (ts, rest, f) := tskip_rest g r max_fuel in Ok (PLeaf k :: ts, rest, f)
  end.
Definition tdflt (d : dflt) (rest : list kind) (f : nat) : res out :=
  match d with DSkip => Ok ([], rest, f) | DErr e => tawe e rest f end.

(** the boolean: did the statement return from the function? *)
Fixpoint ex (G : kind -> option rule) (gas : nat) (s : stmt) (rest : list kind) (f : nat) {struct gas} : res (bool * out) :=
  match gas with
  | 0 => NoGas
  | S g =>
    match s with
    | Skip => Ok (false, ([], rest, f))
    | Seq a b =>
      let* (ret, (ts, rest, f)) := ex G g a rest f in
      if ret then Ok (true, (ts, rest, f))
      else let* (ret, (ts', rest, f)) := ex G g b rest f in Ok (ret, (ts ++ ts', rest, f))
    | Expect k => let* o := texpect k rest f in Ok (false, o)
    | Call r => let* o := ex_rule G g r rest f in Ok (false, o)
    | If fs s =>
      let* (c, f) := tnth rest f in
      if kind_in c fs then ex G g s rest f else Ok (false, ([], rest, f))
    | Sync fs =>
      let* (c, f) := tnth rest f in
      if negb (kind_in c fs) && match rest with [] => false | _ => true end
      then let* o := terror_until g fs fs rest f in Ok (false, o)
      else Ok (false, ([], rest, f))
    | While fs s =>
      let* (c, f) := tnth rest f in
      if kind_in c fs then
        let* (ret, (ts, rest', f)) := ex G g s rest f in
        if ret then Ok (true, (ts, rest', f))
        else if length rest' =? length rest then Ok (false, (ts, rest', f))
        else let* (ret, (ts', rest, f)) := ex G g (While fs s) rest' f in Ok (ret, (ts ++ ts', rest, f))
      else Ok (false, ([], rest, f))
    | Match a => let* (c, f) := tnth rest f in ex_arms G g c a rest f
    end
  end
with ex_arms (G : kind -> option rule) (gas : nat) (c : kind) (a : arms) (rest : list kind) (f : nat) {struct gas} : res (bool * out) :=
  match gas with
  | 0 => NoGas
  | S g =>
    match a with
    | Arm fs s a => if kind_in c fs then ex G g s rest f else ex_arms G g c a rest f
    | ArmEnd d =>
      if kind_eqb c K_Eof then Ok (true, ([], rest, f))
      else let* o := tdflt d rest f in Ok (false, o)
    end
  end
with ex_rule (G : kind -> option rule) (gas : nat) (r : kind) (rest : list kind) (f : nat) {struct gas} : res out :=
  match gas with
  | 0 => NoGas
  | S g =>
    match G r with
    | None => PanicAssert
    | Some R =>
      let* (go, f) := match r_escape R with
                      | Some fs => let* (c, f) := tnth rest f in Ok (kind_in c fs, f)
                      | None => Ok (true, f)
                      end in
      if go then
        let* (ret, (ts, rest, f)) := ex G g (r_body R) rest f in
        if ret then Ok ([PNode (r_kind R) ts; PNode K_Error []], rest, f)
        else if r_unit R then
          let* (c, f) := tnth rest f in
          if kind_eqb c K_Eof then Ok ([PNode (r_kind R) ts], rest, f)
          else let* (us, rest, f) := tskip_rest g rest f in
               Ok ([PNode (r_kind R) (ts ++ [PNode K_Error us])], rest, f)
        else Ok ([PNode (r_kind R) ts], rest, f)
      else Ok ([], rest, f)
    end
  end.

(** ** the event machine computes exactly these trees *)

(** parser state with [rest] to read, out of [toks] *)
Definition st (toks rest : list kind) (f : nat) (evs : list event) : parser :=
  mkparser toks (length toks - length rest) f evs.
Definition suffix (rest toks : list kind) : Prop := exists pre, toks = pre ++ rest.

Lemma suffix_refl l : suffix l l. Proof. exists []; reflexivity. Qed.
Lemma suffix_trans a b c : suffix a b -> suffix b c -> suffix a c.
Proof. intros [x ->] [y ->]. exists (y ++ x). now rewrite app_assoc. Qed.
Lemma suffix_cons k r t : suffix (k :: r) t -> suffix r t.
Proof. intros [x ->]. exists (x ++ [k]). now rewrite <- app_assoc. Qed.
Lemma suffix_length a b : suffix a b -> length a <= length b.
Proof. intros [x ->]. rewrite app_length. lia. Qed.

Lemma nth0_st toks rest f evs : suffix rest toks ->
  nth0 (st toks rest f evs) = let* (c, f) := tnth rest f in Ok (c, st toks rest f evs).
Proof.
  intros [pre ->]. unfold nth0, st, tnth; cbn. destruct f; [reflexivity|]. cbn. do 2 f_equal.
  rewrite app_length. replace (length pre + length rest - length rest) with (length pre) by lia.
  rewrite nth_error_app2, Nat.sub_diag by lia. destruct rest; reflexivity.
Qed.
Lemma eof_st toks rest f evs : suffix rest toks ->
  eof (st toks rest f evs) = match rest with [] => true | _ => false end.
Proof.
  intros [pre ->]. unfold eof, st; cbn. rewrite app_length. destruct rest; cbn.
  - apply Nat.eqb_eq. lia.
  - apply Nat.eqb_neq. lia.
Qed.
Lemma advance_st toks rest f evs : suffix rest toks ->
  advance (st toks rest f evs) = let* (k, r) := tadvance rest in Ok (st toks r max_fuel (evs ++ [Advance])).
Proof.
  intros H. unfold advance. rewrite eof_st by assumption. destruct rest as [|k r]; [reflexivity|]. cbn.
  unfold st. do 2 f_equal. apply suffix_length in H. cbn in *. lia.
Qed.
Lemma push_st e toks rest f evs : push e (st toks rest f evs) = st toks rest f (evs ++ [e]).
Proof. reflexivity. Qed.
Lemma at_any_st ks toks rest f evs : suffix rest toks ->
  at_any ks (st toks rest f evs) = let* (c, f) := tnth rest f in Ok (kind_in c ks, st toks rest f evs).
Proof. intros H. unfold at_any. rewrite nth0_st by assumption. destruct (tnth rest f) as [[c f']| | |]; reflexivity. Qed.
Lemma at_st k toks rest f evs : suffix rest toks ->
  at_ k (st toks rest f evs) = let* (c, f) := tnth rest f in Ok (kind_eqb c k, st toks rest f evs).
Proof. intros H. unfold at_. rewrite nth0_st by assumption. destruct (tnth rest f) as [[c f']| | |]; reflexivity. Qed.

Lemma set_nth_app {A} (a : list A) x y b : set_nth (length a) y (a ++ x :: b) = a ++ y :: b.
Proof. induction a as [|z a IH]; cbn; [reflexivity|now rewrite IH]. Qed.
Lemma close_st toks rest f pre x post k :
  close (length pre) k (st toks rest f (pre ++ x :: post)) = st toks rest f (pre ++ Open k :: post ++ [Close]).
Proof. unfold close, push, st; cbn. rewrite set_nth_app, <- app_assoc. reflexivity. Qed.
Lemma open_st toks rest f evs : open (st toks rest f evs) = (length evs, st toks rest f (evs ++ [Open K_Error])).
Proof. reflexivity. Qed.

(** lift an [out] to a parser *)
Definition lift (toks : list kind) (evs : list event) (o : res out) : res parser :=
  let* (ts, rest, f) := o in Ok (st toks rest f (evs ++ flats ts)).
Definition good (toks : list kind) (o : res out) : Prop :=
  match o with Ok (_, rest, _) => suffix rest toks | _ => True end.

Lemma expect_st k toks rest f evs : suffix rest toks ->
  expect k (st toks rest f evs) = lift toks evs (texpect k rest f) /\ good rest (texpect k rest f).
Proof.
  intros H. unfold expect, eat, texpect. rewrite at_st by assumption.
  unfold tnth. destruct f as [|f]; [split; [reflexivity|exact I]|]. cbn [bind].
  destruct (kind_eqb (look rest) k).
  - rewrite advance_st by assumption. destruct rest as [|c r]; cbn; [auto|]. split; [reflexivity|]. apply suffix_cons with c, suffix_refl.
  - cbn. split; [reflexivity|apply suffix_refl].
Qed.

Lemma awe_st e toks rest f evs : suffix rest toks ->
  advance_with_error e (st toks rest f evs) = lift toks evs (tawe e rest f) /\ good rest (tawe e rest f).
Proof.
  intros H. unfold advance_with_error, tawe. rewrite push_st, at_any_st by assumption.
  unfold tnth. destruct f as [|f]; [split; [reflexivity|exact I]|]. cbn [bind].
  destruct (kind_in (look rest) recovery_tokens); [split; [reflexivity|apply suffix_refl]|].
  rewrite open_st, advance_st by assumption. destruct rest as [|c r]; cbn [tadvance bind]; [split; [reflexivity|exact I]|].
  split; [|apply suffix_cons with c, suffix_refl]. rewrite <- app_assoc. cbn [app].
  rewrite close_st. cbn. rewrite <- app_assoc. reflexivity.
Qed.

Lemma skip_junk_st gas stop : forall toks rest f evs, suffix rest toks ->
  skip_junk gas stop (st toks rest f evs) = lift toks evs (tskip_junk gas stop rest f) /\ good rest (tskip_junk gas stop rest f).
Proof.
  induction gas as [|g IH]; intros toks rest f evs H; [split; [reflexivity|exact I]|].
  cbn [skip_junk tskip_junk]. rewrite at_any_st by assumption.
  unfold tnth. destruct f as [|f]; [split; [reflexivity|exact I]|]. cbn [bind].
  rewrite eof_st by assumption.
  destruct (kind_in (look rest) stop); cbn [negb andb].
  - split; [|apply suffix_refl]. cbn. now rewrite app_nil_r.
  - destruct rest as [|k r]; cbn [negb].
    + split; [|apply suffix_refl]. cbn. now rewrite app_nil_r.
    + rewrite advance_st by assumption. cbn [tadvance bind].
      destruct (IH toks r max_fuel (evs ++ [Advance]) (suffix_cons _ _ _ H)) as [E Hg].
      rewrite E. destruct (tskip_junk g stop r max_fuel) as [[[ts rest'] f']| | |]; cbn; auto.
      rewrite <- app_assoc. split; [reflexivity|].
      eapply suffix_trans; [exact Hg|]. apply suffix_cons with k, suffix_refl.
Qed.
Lemma error_until_st gas e stop toks rest f evs : suffix rest toks ->
  error_until gas e stop (st toks rest f evs) = lift toks evs (terror_until gas e stop rest f) /\ good rest (terror_until gas e stop rest f).
Proof.
  intros H. unfold error_until, terror_until. rewrite push_st, at_any_st by assumption.
  unfold tnth. destruct f as [|f]; [split; [reflexivity|exact I]|]. cbn [bind].
  rewrite eof_st by assumption.
  destruct (kind_in (look rest) stop || match rest with [] => true | _ => false end); [split; [reflexivity|apply suffix_refl]|].
  rewrite open_st. destruct (skip_junk_st gas stop toks rest f ((evs ++ [Error e]) ++ [Open K_Error]) H) as [E Hg].
  rewrite E. destruct (tskip_junk gas stop rest f) as [[[ts rest'] f']| | |]; cbn [bind lift]; auto.
  split; [|exact Hg]. rewrite <- (app_assoc (evs ++ [Error e])). cbn [app]. rewrite close_st. unfold flats. cbn [flat_map flat app]. rewrite app_nil_r, <- app_assoc. reflexivity.
Qed.
Lemma skip_rest_st gas : forall toks rest f evs, suffix rest toks ->
  skip_rest gas (st toks rest f evs) = lift toks evs (tskip_rest gas rest f) /\ good rest (tskip_rest gas rest f).
Proof.
  induction gas as [|g IH]; intros toks rest f evs H; [split; [reflexivity|exact I]|].
  cbn [skip_rest tskip_rest]. rewrite at_st by assumption.
  unfold tnth. destruct f as [|f]; [split; [reflexivity|exact I]|]. cbn [bind].
  destruct (kind_eqb (look rest) K_Eof).
  - split; [|apply suffix_refl]. cbn. now rewrite app_nil_r.
  - rewrite advance_st by assumption. destruct rest as [|k r]; cbn [tadvance bind]; [split; [reflexivity|exact I]|].
    destruct (IH toks r max_fuel (evs ++ [Advance]) (suffix_cons _ _ _ H)) as [E Hg].
    rewrite E. destruct (tskip_rest g r max_fuel) as [[[ts rest'] f']| | |]; cbn; auto.
    rewrite <- app_assoc. split; [reflexivity|].
    eapply suffix_trans; [exact Hg|]. apply suffix_cons with k, suffix_refl.
Qed.
Lemma dflt_st d toks rest f evs : suffix rest toks ->
  exec_dflt d (st toks rest f evs) = lift toks evs (tdflt d rest f) /\ good rest (tdflt d rest f).
Proof.
  intros H. destruct d; cbn; [|now apply awe_st]. rewrite app_nil_r. split; [reflexivity|apply suffix_refl].
Qed.

(** a statement inside function [me], whose marker stands at [Open _] after [pre] *)
Definition liftb (toks : list kind) (me : kind) (pre mid : list event) (o : res (bool * out)) : res (bool * parser) :=
  let* (ret, (ts, rest, f)) := o in
  if ret then Ok (true, st toks rest f (pre ++ Open me :: mid ++ flats ts ++ [Close; Open K_Error; Close]))
  else Ok (false, st toks rest f (pre ++ Open K_Error :: mid ++ flats ts)).
Definition goodb (toks : list kind) (o : res (bool * out)) : Prop :=
  match o with Ok (_, (_, rest, _)) => suffix rest toks | _ => True end.

Lemma flats_app a b : flats (a ++ b) = flats a ++ flats b.
Proof. unfold flats. apply flat_map_app. Qed.

Lemma liftb_of_lift toks me pre mid o :
  (let* p := lift toks (pre ++ Open K_Error :: mid) o in Ok (false, p)) = liftb toks me pre mid (let* o := o in Ok (false, o)).
Proof.
  destruct o as [[[ts rest] f]| | |]; cbn; [|reflexivity..]. rewrite <- app_assoc. reflexivity.
Qed.

Lemma run_ex G gas :
  (forall s me pre mid toks rest f, suffix rest toks ->
     exec G gas me (length pre) s (st toks rest f (pre ++ Open K_Error :: mid)) = liftb toks me pre mid (ex G gas s rest f)
     /\ goodb rest (ex G gas s rest f)) /\
  (forall a c me pre mid toks rest f, suffix rest toks ->
     exec_arms G gas me (length pre) c a (st toks rest f (pre ++ Open K_Error :: mid)) = liftb toks me pre mid (ex_arms G gas c a rest f)
     /\ goodb rest (ex_arms G gas c a rest f)) /\
  (forall r toks rest f evs, suffix rest toks ->
     parse_rule G gas r (st toks rest f evs) = lift toks evs (ex_rule G gas r rest f)
     /\ good rest (ex_rule G gas r rest f)).
Proof.
  induction gas as [|g (IHs & IHa & IHr)].
  { repeat split; reflexivity. }
  split; [|split].
  - intros s me pre mid toks rest f H. destruct s; cbn [exec ex].
    + (* Skip *) cbn. rewrite app_nil_r. split; [reflexivity|apply suffix_refl].
    + (* Seq *)
      destruct (IHs s1 me pre mid toks rest f H) as [E1 G1]. rewrite E1. clear E1.
      destruct (ex G g s1 rest f) as [[ret [[ts rest1] f1]]| | |]; cbn [bind liftb]; auto.
      cbn in G1. destruct ret; cbn [bind]; [split; [reflexivity|exact G1]|].
      destruct (IHs s2 me pre (mid ++ flats ts) toks rest1 f1 (suffix_trans _ _ _ G1 H)) as [E2 G2]. rewrite E2. clear E2.
      destruct (ex G g s2 rest1 f1) as [[ret [[ts2 rest2] f2]]| | |]; cbn [bind liftb]; auto.
      split; [|cbn; eapply suffix_trans; eassumption].
      destruct ret; cbn; rewrite flats_app, <- !app_assoc; reflexivity.
    + (* Expect *)
      destruct (expect_st k toks rest f (pre ++ Open K_Error :: mid) H) as [E Hg]. rewrite E, liftb_of_lift with (me := me).
      split; [reflexivity|]. destruct (texpect k rest f) as [[[ts r] f']| | |]; cbn; auto.
    + (* Call *)
      destruct (IHr r toks rest f (pre ++ Open K_Error :: mid) H) as [E Hg]. rewrite E, liftb_of_lift with (me := me).
      split; [reflexivity|]. destruct (ex_rule G g r rest f) as [[[ts r'] f']| | |]; cbn; auto.
    + (* If *)
      rewrite at_any_st by assumption. unfold tnth. destruct f as [|f]; [split; [reflexivity|exact I]|]. cbn [bind].
      destruct (kind_in (look rest) fs); [now apply IHs|].
      cbn. rewrite app_nil_r. split; [reflexivity|apply suffix_refl].
    + (* Sync *)
      rewrite at_any_st by assumption. unfold tnth. destruct f as [|f]; [split; [reflexivity|exact I]|]. cbn [bind].
      rewrite eof_st by assumption.
      replace (negb match rest with [] => true | _ :: _ => false end) with (match rest with [] => false | _ :: _ => true end)
        by (destruct rest; reflexivity).
      destruct (negb (kind_in (look rest) fs) && match rest with [] => false | _ :: _ => true end).
      * destruct (error_until_st g fs fs toks rest f (pre ++ Open K_Error :: mid) H) as [E Hg]. rewrite E, liftb_of_lift with (me := me).
        split; [reflexivity|]. destruct (terror_until g fs fs rest f) as [[[ts r] f']| | |]; cbn; auto.
      * cbn. rewrite app_nil_r. split; [reflexivity|apply suffix_refl].
    + (* While *)
      rewrite at_any_st by assumption. unfold tnth. destruct f as [|f]; [split; [reflexivity|exact I]|]. cbn [bind].
      destruct (kind_in (look rest) fs); [|cbn; rewrite app_nil_r; split; [reflexivity|apply suffix_refl]].
      cbv zeta. destruct (IHs s me pre mid toks rest f H) as [E1 G1]. rewrite E1. clear E1.
      destruct (ex G g s rest f) as [[ret [[ts rest1] f1]]| | |]; cbn [bind liftb]; auto.
      cbn in G1. destruct ret; cbn [bind]; [split; [reflexivity|exact G1]|].
      cbn [p_pos st].
      replace (length toks - length rest1 =? length toks - length rest) with (length rest1 =? length rest).
      2:{ pose proof (suffix_length _ _ G1). pose proof (suffix_length _ _ H).
          destruct (Nat.eqb_spec (length rest1) (length rest)); symmetry; [apply Nat.eqb_eq|apply Nat.eqb_neq]; lia. }
      destruct (length rest1 =? length rest); [split; [reflexivity|exact G1]|].
      destruct (IHs (While fs s) me pre (mid ++ flats ts) toks rest1 f1 (suffix_trans _ _ _ G1 H)) as [E2 G2]. rewrite E2. clear E2.
      destruct (ex G g (While fs s) rest1 f1) as [[ret [[ts2 rest2] f2]]| | |]; cbn [bind liftb]; auto.
      split; [|cbn; eapply suffix_trans; eassumption].
      destruct ret; cbn; rewrite flats_app, <- !app_assoc; reflexivity.
    + (* Match *)
      rewrite nth0_st by assumption. unfold tnth. destruct f as [|f]; [split; [reflexivity|exact I]|]. cbn [bind].
      now apply IHa.
  - intros a c me pre mid toks rest f H. destruct a; cbn [exec_arms ex_arms].
    + destruct (kind_in c fs); [now apply IHs|now apply IHa].
    + destruct (kind_eqb c K_Eof).
      * rewrite close_st, open_st. split; [|apply suffix_refl].
        rewrite (close_st toks rest f (pre ++ Open me :: mid ++ [Close]) (Open K_Error) [] K_Error).
        cbn [liftb bind flats flat_map app]. rewrite <- app_assoc. cbn [app]. rewrite <- app_assoc. reflexivity.
      * destruct (dflt_st d toks rest f (pre ++ Open K_Error :: mid) H) as [E Hg]. rewrite E, liftb_of_lift with (me := me).
        split; [reflexivity|]. destruct (tdflt d rest f) as [[[ts r] f']| | |]; cbn; auto.
  - intros r toks rest f evs H. cbn [parse_rule ex_rule]. destruct (G r) as [R|]; [|split; [reflexivity|exact I]].
    assert (Hesc : (match r_escape R with Some fs => at_any fs (st toks rest f evs) | None => Ok (true, st toks rest f evs) end)
                 = let* (go, f) := match r_escape R with Some fs => let* (c, f) := tnth rest f in Ok (kind_in c fs, f) | None => Ok (true, f) end in
                   Ok (go, st toks rest f evs)).
    { destruct (r_escape R); [|reflexivity]. rewrite at_any_st by assumption. destruct (tnth rest f) as [[? ?]| | |]; reflexivity. }
    rewrite Hesc. clear Hesc.
    destruct (match r_escape R with Some fs => let* (c, f) := tnth rest f in Ok (kind_in c fs, f) | None => Ok (true, f) end)
      as [[go f0]| | |]; cbn [bind]; auto; try (split; [reflexivity|exact I]).
    destruct go; [|cbn; rewrite app_nil_r; split; [reflexivity|apply suffix_refl]].
    rewrite open_st.
    destruct (IHs (r_body R) (r_kind R) evs [] toks rest f0 H) as [E1 G1]. rewrite E1. clear E1.
    destruct (ex G g (r_body R) rest f0) as [[ret [[ts rest1] f1]]| | |]; cbn [bind liftb]; auto.
    cbn in G1. destruct ret; cbn [bind].
    { split; [|exact G1]. cbn. unfold flats. cbn [flat_map flat app]. rewrite <- !app_assoc. reflexivity. }
    pose proof (suffix_trans _ _ _ G1 H) as H1.
    destruct (r_unit R).
    + rewrite at_st by assumption. unfold tnth. destruct f1 as [|f1]; [split; [reflexivity|exact I]|]. cbn [bind].
      destruct (kind_eqb (look rest1) K_Eof); cbn [bind].
      * rewrite close_st. split; [|exact G1]. cbn. rewrite app_nil_r. reflexivity.
      * rewrite open_st. cbn [app].
        destruct (skip_rest_st g toks rest1 f1 ((evs ++ Open K_Error :: flats ts) ++ [Open K_Error]) H1) as [E Hg]. rewrite E. clear E.
        destruct (tskip_rest g rest1 f1) as [[[us rest2] f2]| | |]; cbn [bind lift]; auto.
        split; [|cbn; eapply suffix_trans; eassumption].
        rewrite <- (app_assoc (evs ++ _)). cbn [app].
        rewrite close_st. rewrite <- app_assoc. cbn [app]. rewrite close_st. unfold flats. cbn [flat_map flat].
        rewrite flat_map_app. cbn [flat_map flat]. rewrite !app_nil_r, <- !app_assoc. cbn [app]. rewrite <- !app_assoc. reflexivity.
    + cbn [bind]. rewrite close_st. split; [|exact G1]. cbn. rewrite app_nil_r. reflexivity.
Qed.

Theorem run_parser_ex G gas entry input :
  run_parser G gas entry input = let* (ts, _, _) := ex_rule G gas entry input max_fuel in Ok (flats ts).
Proof.
  unfold run_parser. change (new_parser input) with (mkparser input 0 max_fuel []).
  replace (mkparser input 0 max_fuel []) with (st input input max_fuel []) by (unfold st; now rewrite Nat.sub_diag).
  destruct (run_ex G gas) as (_ & _ & H). destruct (H entry input input max_fuel [] (suffix_refl _)) as [E _]. rewrite E.
  destruct (ex_rule G gas entry input max_fuel) as [[[ts rest] f]| | |]; reflexivity.
Qed.
