(** Invariants of every parser run: what is consumed, termination, and which panics
    are possible.  All for an arbitrary grammar table satisfying decidable conditions,
    checked for the real one in ParserChecks.v. *)
From Coq Require Import List Arith Bool Lia.
Import ListNotations.
From Verif Require Import Kinds KindFacts ParserSyntax ParserModel ParserTree.

(** tokens in a raw tree *)
Fixpoint pleaves (t : ptree) : list kind :=
  match t with
  | PLeaf k => [k]
  | PNode _ ts => flat_map pleaves ts
  | PErr _ => []
  end.
Definition pleavess (ts : list ptree) : list kind := flat_map pleaves ts.
Lemma pleavess_app a b : pleavess (a ++ b) = pleavess a ++ pleavess b.
Proof. unfold pleavess. apply flat_map_app. Qed.

(** what [o] read from [rest], [f] *)
Definition reads (rest : list kind) (f : nat) (o : out) : Prop :=
  let '(ts, rest', f') := o in
  rest = pleavess ts ++ rest' /\ f' <= max_fuel /\ (pleavess ts = [] -> f' <= f).

Lemma tnth_ok rest f c f' : tnth rest f = Ok (c, f') -> c = look rest /\ f = S f'.
Proof. unfold tnth. destruct f; [discriminate|]. now intros [= <- <-]. Qed.

Ltac inv_bind H :=
  match type of H with
  | bind ?x _ = Ok _ => let E := fresh "E" in destruct x as [?| | |] eqn:E; cbn [bind] in H; try discriminate H
  end.

Lemma max_fuel_S f : S f <= max_fuel -> f <= max_fuel.
Proof. lia. Qed.

Lemma texpect_reads k rest f o : f <= max_fuel -> texpect k rest f = Ok o -> reads rest f o.
Proof.
  intros Hf H. unfold texpect in H. inv_bind H. destruct a as [c f1]. apply tnth_ok in E as [-> ->].
  destruct (kind_eqb (look rest) k).
  - destruct rest as [|x r]; [discriminate|]. cbn in H. injection H as <-. cbn. repeat split; [lia|discriminate].
  - injection H as <-. cbn. repeat split; lia.
Qed.
Lemma tawe_reads e rest f o : f <= max_fuel -> tawe e rest f = Ok o -> reads rest f o.
Proof.
  intros Hf H. unfold tawe in H. inv_bind H. destruct a as [c f1]. apply tnth_ok in E as [-> ->].
  destruct (kind_in (look rest) recovery_tokens).
  - injection H as <-. cbn. repeat split; lia.
  - destruct rest as [|x r]; [discriminate|]. cbn in H. injection H as <-. cbn. repeat split; [lia|discriminate].
Qed.
Lemma tskip_junk_reads gas stop : forall rest f o, f <= max_fuel -> tskip_junk gas stop rest f = Ok o -> reads rest f o.
Proof.
  induction gas as [|g IH]; intros rest f o Hf H; [discriminate|]. cbn [tskip_junk] in H. inv_bind H.
  destruct a as [c f1]. apply tnth_ok in E as [-> ->].
  destruct (kind_in (look rest) stop); [injection H as <-; cbn; repeat split; lia|].
  destruct rest as [|x r]; [injection H as <-; cbn; repeat split; lia|].
  inv_bind H. destruct a as [[ts r'] f']. injection H as <-. apply IH in E; [|lia].
  destruct E as (E1 & E2 & E3). cbn. rewrite E1. repeat split; [assumption|discriminate].
Qed.
Lemma terror_until_reads gas e stop rest f o : f <= max_fuel -> terror_until gas e stop rest f = Ok o -> reads rest f o.
Proof.
  intros Hf H. unfold terror_until in H. inv_bind H. destruct a as [c f1]. apply tnth_ok in E as [-> ->].
  destruct (kind_in _ _ || _); [injection H as <-; cbn; repeat split; lia|].
  inv_bind H. destruct a as [[ts r'] f']. injection H as <-. apply tskip_junk_reads in E; [|lia].
  destruct E as (E1 & E2 & E3). cbn. rewrite app_nil_r. repeat split; [exact E1|assumption|].
  intros K. specialize (E3 K). lia.
Qed.
Lemma tskip_rest_reads gas : forall rest f o, f <= max_fuel -> tskip_rest gas rest f = Ok o -> reads rest f o.
Proof.
  induction gas as [|g IH]; intros rest f o Hf H; [discriminate|]. cbn [tskip_rest] in H. inv_bind H.
  destruct a as [c f1]. apply tnth_ok in E as [-> ->].
  destruct (kind_eqb (look rest) K_Eof); [injection H as <-; cbn; repeat split; lia|].
  destruct rest as [|x r]; [discriminate|]. cbn [tadvance bind] in H.
  inv_bind H. destruct a as [[ts r'] f']. injection H as <-. apply IH in E; [|lia].
  destruct E as (E1 & E2 & E3). cbn. rewrite E1. repeat split; [assumption|discriminate].
Qed.
Lemma tdflt_reads d rest f o : f <= max_fuel -> tdflt d rest f = Ok o -> reads rest f o.
Proof.
  intros Hf H. destruct d; cbn in H; [|now apply tawe_reads in H]. injection H as <-. cbn. repeat split; lia.
Qed.

Lemma reads_seq rest f ts rest1 f1 ts2 rest2 f2 :
  reads rest f (ts, rest1, f1) -> reads rest1 f1 (ts2, rest2, f2) -> reads rest f (ts ++ ts2, rest2, f2).
Proof.
  intros (A1 & A2 & A3) (B1 & B2 & B3). cbn. rewrite pleavess_app, <- app_assoc, <- B1. repeat split; try assumption.
  intros K. apply app_eq_nil in K as [K1 K2]. specialize (A3 K1). specialize (B3 K2). lia.
Qed.
Lemma reads_peek rest f o : reads rest f o -> reads rest (S f) o.
Proof. destruct o as [[ts r] f']. intros (A & B & C). cbn. repeat split; auto. Qed.

Lemma ex_reads G gas :
  (forall s rest f ret o, f <= max_fuel -> ex G gas s rest f = Ok (ret, o) -> reads rest f o) /\
  (forall a c rest f ret o, f <= max_fuel -> ex_arms G gas c a rest f = Ok (ret, o) -> reads rest f o) /\
  (forall r rest f o, f <= max_fuel -> ex_rule G gas r rest f = Ok o -> reads rest f o).
Proof.
  induction gas as [|g (IHs & IHa & IHr)]; [repeat split; intros; discriminate|]. split; [|split].
  - intros s rest f ret o Hf H. destruct s; cbn [ex] in H.
    + injection H as <- <-. cbn. repeat split; auto.
    + inv_bind H. destruct a as [ret1 [[ts1 rest1] f1]]. apply IHs in E; [|assumption].
      destruct ret1; [injection H as <- <-; exact E|].
      inv_bind H. destruct a as [ret2 [[ts2' rest2] f2]]. injection H as <- <-. apply IHs in E0; [|apply E].
      eapply reads_seq; eassumption.
    + inv_bind H. injection H as <- <-. now apply texpect_reads in E.
    + inv_bind H. injection H as <- <-. now apply IHr in E.
    + inv_bind H. destruct a as [c f1]. apply tnth_ok in E as [-> ->].
      destruct (kind_in _ _); [apply IHs in H; [now apply reads_peek|lia]|].
      injection H as <- <-. cbn. repeat split; lia.
    + inv_bind H. destruct a as [c f1]. apply tnth_ok in E as [-> ->].
      destruct (negb _ && _); [inv_bind H; injection H as <- <-; apply terror_until_reads in E; [now apply reads_peek|lia]|].
      injection H as <- <-. cbn. repeat split; lia.
    + inv_bind H. destruct a as [c f1]. apply tnth_ok in E as [-> ->].
      destruct (kind_in _ _); [|injection H as <- <-; cbn; repeat split; lia].
      inv_bind H. destruct a as [ret1 [[ts1 rest1] f1']]. apply IHs in E; [|lia]. apply reads_peek in E.
      destruct ret1; [injection H as <- <-; exact E|].
      destruct (length rest1 =? length rest); [injection H as <- <-; exact E|].
      inv_bind H. destruct a as [ret2 [[ts2' rest2] f2]]. injection H as <- <-. apply IHs in E0; [|apply E].
      eapply reads_seq; eassumption.
    + inv_bind H. destruct a0 as [c f1]. apply tnth_ok in E as [-> ->]. apply IHa in H; [now apply reads_peek|lia].
  - intros a c rest f ret o Hf H. destruct a; cbn [ex_arms] in H.
    + destruct (kind_in _ _); [now apply IHs in H|now apply IHa in H].
    + destruct (kind_eqb _ _); [injection H as <- <-; cbn; repeat split; auto|].
      inv_bind H. injection H as <- <-. now apply tdflt_reads in E.
  - intros r rest f o Hf H. cbn [ex_rule] in H. destruct (G r) as [R|]; [|discriminate].
    inv_bind H. destruct a as [go f0].
    assert (Hf0 : f0 <= f).
    { destruct (r_escape R); [inv_bind E; destruct a; injection E as <- <-; apply tnth_ok in E0 as [_ ->]; lia|injection E as <- <-; lia]. }
    destruct go; [|injection H as <-; cbn; repeat split; lia].
    inv_bind H. destruct a as [ret [[ts rest1] f1]]. apply IHs in E0; [|lia]. destruct E0 as (A1 & A2 & A3).
    destruct ret.
    { injection H as <-. cbn. rewrite app_nil_r. repeat split; [exact A1|assumption|intros K; specialize (A3 K); lia]. }
    destruct (r_unit R).
    + inv_bind H. destruct a as [c f2]. apply tnth_ok in E0 as [-> ->].
      destruct (kind_eqb _ _).
      * injection H as <-. cbn. rewrite app_nil_r. repeat split; [exact A1|lia|intros K; specialize (A3 K); lia].
      * inv_bind H. destruct a as [[us rest2] f3]. injection H as <-. apply tskip_rest_reads in E0; [|lia].
        destruct E0 as (B1 & B2 & B3). cbn. rewrite app_nil_r, flat_map_app. cbn. rewrite app_nil_r, <- app_assoc.
        fold (pleavess ts) (pleavess us). rewrite <- B1. repeat split; try assumption.
        intros K. apply app_eq_nil in K as [K1 K2]. specialize (A3 K1). specialize (B3 K2). lia.
    + injection H as <-. cbn. rewrite app_nil_r. repeat split; [exact A1|lia|intros K; specialize (A3 K); lia].
Qed.

(** ** more gas gives the same result *)
Definition le_res {A} (x y : res A) : Prop := x = NoGas \/ x = y.
Lemma le_res_bind {A B} (x y : res A) (k1 k2 : A -> res B) :
  le_res x y -> (forall a, le_res (k1 a) (k2 a)) -> le_res (bind x k1) (bind y k2).
Proof. intros [->| ->] H; [left; reflexivity|]. destruct y; cbn; [apply H|right; reflexivity..]. Qed.
Lemma le_res_refl {A} (x : res A) : le_res x x. Proof. right; reflexivity. Qed.
Ltac le_tac := repeat first
  [ apply le_res_refl
  | apply le_res_bind; [|intros]
  | progress intros
  | match goal with
    | |- le_res (let '_ := ?x in _) _ => destruct x
    | |- le_res (match ?x with _ => _ end) _ => destruct x
    end
  | solve [auto] ].

Lemma tskip_junk_gas g stop : forall g' rest f, g <= g' -> le_res (tskip_junk g stop rest f) (tskip_junk g' stop rest f).
Proof.
  induction g as [|g IH]; intros g' rest f Hg; [left; reflexivity|]. destruct g' as [|g']; [lia|].
  assert (g <= g') by lia. cbn [tskip_junk]. le_tac.
Qed.
Lemma tskip_rest_gas g : forall g' rest f, g <= g' -> le_res (tskip_rest g rest f) (tskip_rest g' rest f).
Proof.
  induction g as [|g IH]; intros g' rest f Hg; [left; reflexivity|]. destruct g' as [|g']; [lia|].
  assert (g <= g') by lia. cbn [tskip_rest]. le_tac.
Qed.
Lemma ex_gas G g : forall g', g <= g' ->
  (forall s rest f, le_res (ex G g s rest f) (ex G g' s rest f)) /\
  (forall a c rest f, le_res (ex_arms G g c a rest f) (ex_arms G g' c a rest f)) /\
  (forall r rest f, le_res (ex_rule G g r rest f) (ex_rule G g' r rest f)).
Proof.
  induction g as [|g IH]; intros g' Hg; [repeat split; intros; left; reflexivity|].
  destruct g' as [|g']; [lia|]. assert (Hg' : g <= g') by lia. destruct (IH g' Hg') as (IHs & IHa & IHr).
  split; [|split].
  - intros s rest f. destruct s; cbn [ex]; le_tac.
    unfold terror_until. le_tac. now apply tskip_junk_gas.
  - intros a c rest f. destruct a; cbn [ex_arms]; le_tac.
  - intros r rest f. cbn [ex_rule]. le_tac. now apply tskip_rest_gas.
Qed.

(** ** termination *)
Section Termination.
  Context (G : kind -> option rule) (T : kind -> nat) (M : nat).

  (** how deep the interpreter can go before the next look at a token *)
  Fixpoint sz (s : stmt) : nat :=
    match s with
    | Seq a b => S (Nat.max (sz a) (sz b))
    | Call r => S (T r)
    | _ => 1
    end.
  Fixpoint sza (a : arms) : nat :=
    match a with
    | Arm _ s a => S (Nat.max (sz s) (sza a))
    | ArmEnd _ => 1
    end.
  (** every statement reached right after a look has depth at most [M] *)
  Fixpoint szok (s : stmt) : bool :=
    match s with
    | Seq a b => szok a && szok b
    | If _ s | While _ s => szok s && (sz s <=? M)
    | Match a => szok_arms a && (sza a <=? M)
    | _ => true
    end
  with szok_arms (a : arms) : bool :=
    match a with
    | Arm _ s a => szok s && szok_arms a
    | ArmEnd _ => true
    end.
  Definition rule_szok (r : kind) (R : rule) : bool :=
    szok (r_body R) && (sz (r_body R) <=? M) && (1 <=? T r) &&
    match r_escape R with Some _ => true | None => sz (r_body R) <? T r end.

  Hypothesis Gok : forall r R, G r = Some R -> rule_szok r R = true.
  Hypothesis Mpos : 1 <= M.

  Definition pot (rest : list kind) (f : nat) : nat := length rest * S max_fuel + f.
  Lemma reads_pot rest f ts rest' f' : reads rest f (ts, rest', f') -> pot rest' f' <= pot rest f.
  Proof.
    intros (-> & B & C). unfold pot. rewrite app_length.
    destruct (pleavess ts) as [|k l]; cbn [length app]; [specialize (C eq_refl); lia|]. nia.
  Qed.
  Lemma pot_len rest f : length rest <= pot rest f * M.
  Proof. unfold pot. nia. Qed.

  Lemma tskip_junk_terminates stop : forall gas rest f, length rest < gas -> tskip_junk gas stop rest f <> NoGas.
  Proof.
    induction gas as [|g IH]; intros rest f Hg; [lia|]. cbn [tskip_junk]. unfold tnth. destruct f; [discriminate|]. cbn [bind].
    destruct (kind_in _ _); [discriminate|]. destruct rest as [|k r]; [discriminate|]. cbn in Hg.
    assert (K : length r < g) by lia. specialize (IH r max_fuel K). destruct (tskip_junk g stop r max_fuel) as [[[? ?] ?]| | |]; try discriminate. congruence.
  Qed.
  Lemma tskip_rest_terminates : forall gas rest f, length rest < gas -> tskip_rest gas rest f <> NoGas.
  Proof.
    induction gas as [|g IH]; intros rest f Hg; [lia|]. cbn [tskip_rest]. unfold tnth. destruct f; [discriminate|]. cbn [bind].
    destruct (kind_eqb _ _); [discriminate|]. destruct rest as [|k r]; [discriminate|]. cbn in Hg. cbn [tadvance bind].
    assert (K : length r < g) by lia. specialize (IH r max_fuel K). destruct (tskip_rest g r max_fuel) as [[[? ?] ?]| | |]; try discriminate. congruence.
  Qed.

  Lemma pot_S rest f : pot rest (S f) * M = pot rest f * M + M.
  Proof. unfold pot. nia. Qed.

  Ltac bindcase E := match goal with
    | |- bind ?x _ <> NoGas => destruct x as [?| | |] eqn:E; cbn [bind]; try discriminate
    end.

  Lemma ex_terminates gas :
    (forall s rest f, f <= max_fuel -> szok s = true -> pot rest f * M + sz s < gas -> ex G gas s rest f <> NoGas) /\
    (forall a c rest f, f <= max_fuel -> szok_arms a = true -> pot rest f * M + sza a < gas -> ex_arms G gas c a rest f <> NoGas) /\
    (forall r rest f, f <= max_fuel -> pot rest f * M + T r < gas -> ex_rule G gas r rest f <> NoGas).
  Proof.
    induction gas as [|g (IHs & IHa & IHr)]; [repeat split; intros; lia|]. split; [|split].
    - intros s rest f Hf Hok Hg. destruct s; cbn [ex]; cbn [szok sz] in Hok, Hg.
      + discriminate.
      + apply andb_true_iff in Hok as [Ha Hb]. bindcase E.
        2:{ exfalso. revert E. apply IHs; [assumption..|lia]. }
        destruct a as [ret [[ts rest1] f1]]. destruct ret; [discriminate|].
        apply (proj1 (ex_reads G g)) in E; [|assumption]. pose proof (reads_pot _ _ _ _ _ E) as Hp.
        bindcase E2. 1:{ destruct a as [? [[? ?] ?]]. discriminate. }
        exfalso. revert E2. apply IHs; [apply E|assumption|].
        assert (pot rest1 f1 * M <= pot rest f * M) by (apply Nat.mul_le_mono_r; assumption). lia.
      + unfold texpect, tnth. destruct f; [discriminate|]. cbn [bind].
        destruct (kind_eqb _ _); [|discriminate]. destruct rest; discriminate.
      + bindcase E. exfalso. revert E. apply IHr; [assumption|lia].
      + unfold tnth. destruct f; [discriminate|]. cbn [bind]. destruct (kind_in _ _); [|discriminate].
        apply andb_true_iff in Hok as [Hs Hm]. apply Nat.leb_le in Hm. rewrite pot_S in Hg. apply IHs; [lia|assumption|lia].
      + unfold tnth. destruct f; [discriminate|]. cbn [bind]. destruct (negb _ && _); [|discriminate].
        unfold terror_until, tnth. destruct f; [discriminate|]. cbn [bind]. destruct (kind_in _ _ || _); [discriminate|].
        assert (K : length rest < g) by (pose proof (pot_len rest (S (S f))); lia).
        pose proof (tskip_junk_terminates fs g rest f K). destruct (tskip_junk g fs rest f) as [[[? ?] ?]| | |]; try discriminate. congruence.
      + unfold tnth. destruct f; [discriminate|]. cbn [bind]. destruct (kind_in _ _); [|discriminate].
        pose proof Hok as Hok'. apply andb_true_iff in Hok as [Hs Hm]. apply Nat.leb_le in Hm. rewrite pot_S in Hg.
        bindcase E. 2:{ exfalso. revert E. apply IHs; [lia|assumption|lia]. }
        destruct a as [ret [[ts rest1] f1]]. destruct ret; [discriminate|].
        apply (proj1 (ex_reads G g)) in E; [|lia]. pose proof (reads_pot _ _ _ _ _ E) as Hp.
        destruct (length rest1 =? length rest); [discriminate|].
        bindcase E2. 1:{ destruct a as [? [[? ?] ?]]. discriminate. }
        exfalso. revert E2. apply IHs; [apply E|exact Hok'|].
        assert (pot rest1 f1 * M <= pot rest f * M) by (apply Nat.mul_le_mono_r; assumption). cbn [sz]. lia.
      + unfold tnth. destruct f; [discriminate|]. cbn [bind].
        apply andb_true_iff in Hok as [Hs Hm]. apply Nat.leb_le in Hm. rewrite pot_S in Hg. apply IHa; [lia|assumption|lia].
    - intros a c rest f Hf Hok Hg. destruct a; cbn [ex_arms]; cbn [szok_arms sza] in Hok, Hg.
      + apply andb_true_iff in Hok as [Hs Ha]. destruct (kind_in _ _); [apply IHs|apply IHa]; try assumption; lia.
      + destruct (kind_eqb _ _); [discriminate|]. destruct d; cbn; [discriminate|].
        unfold tawe, tnth. destruct f; [discriminate|]. cbn [bind]. destruct (kind_in _ _); [discriminate|].
        destruct rest; discriminate.
    - intros r rest f Hf Hg. cbn [ex_rule]. destruct (G r) as [R|] eqn:ER; [|discriminate].
      apply Gok in ER. unfold rule_szok in ER. rewrite !andb_true_iff in ER. destruct ER as [[[Hb Hm] HT] He].
      apply Nat.leb_le in Hm, HT.
      assert (K : forall f0, f0 <= max_fuel -> pot rest f0 * M + sz (r_body R) < g ->
        (let* (ret, (ts, rest, f)) := ex G g (r_body R) rest f0 in
          if ret then Ok ([PNode (r_kind R) ts; PNode K_Error []], rest, f)
          else if r_unit R then
            let* (c, f) := tnth rest f in
            if kind_eqb c K_Eof then Ok ([PNode (r_kind R) ts], rest, f)
            else let* (us, rest, f) := tskip_rest g rest f in
                 Ok ([PNode (r_kind R) (ts ++ [PNode K_Error us])], rest, f)
          else Ok ([PNode (r_kind R) ts], rest, f)) <> NoGas).
      { intros f0 Hf0 Hg0. bindcase E. 2:{ exfalso. revert E. now apply IHs. }
        destruct a as [ret [[ts rest1] f1]]. destruct ret; [discriminate|]. destruct (r_unit R); [|discriminate].
        apply (proj1 (ex_reads G g)) in E; [|lia]. pose proof (reads_pot _ _ _ _ _ E) as Hp.
        unfold tnth. destruct f1; [discriminate|]. cbn [bind]. destruct (kind_eqb _ _); [discriminate|].
        assert (K : length rest1 < g).
        { pose proof (pot_len rest1 (S f1)). assert (pot rest1 (S f1) * M <= pot rest f0 * M) by (apply Nat.mul_le_mono_r; assumption). lia. }
        pose proof (tskip_rest_terminates g rest1 f1 K). destruct (tskip_rest g rest1 f1) as [[[? ?] ?]| | |]; try discriminate. congruence. }
      destruct (r_escape R) as [fs|].
      + unfold tnth. destruct f as [|f]; [discriminate|]. cbn [bind]. destruct (kind_in _ _); [|discriminate].
        rewrite pot_S in Hg. apply K; lia.
      + cbn [bind]. apply Nat.ltb_lt in He. apply K; [assumption|lia].
  Qed.
End Termination.

(** ** the assertion in [advance] never fails *)
Section NoAssert.
  Context (G : kind -> option rule).
  (** all called functions exist, no [expect(Eof)] *)
  Fixpoint calls_ok (s : stmt) : bool :=
    match s with
    | Seq a b => calls_ok a && calls_ok b
    | Expect k => negb (kind_eqb k K_Eof)
    | Call r => match G r with Some _ => true | None => false end
    | If _ s | While _ s => calls_ok s
    | Match a => calls_ok_arms a
    | _ => true
    end
  with calls_ok_arms (a : arms) : bool :=
    match a with
    | Arm _ s a => calls_ok s && calls_ok_arms a
    | ArmEnd _ => true
    end.
  Hypothesis Gok : forall r R, G r = Some R -> calls_ok (r_body R) = true.

  Lemma look_eof rest : ~ In K_Eof rest -> look rest = K_Eof -> rest = [].
  Proof. destruct rest as [|k r]; [reflexivity|]. cbn. intros H E. subst. exfalso. apply H. now left. Qed.
  Lemma reads_noeof rest f ts rest' f' : ~ In K_Eof rest -> reads rest f (ts, rest', f') -> ~ In K_Eof rest'.
  Proof. intros H (-> & _) K. apply H, in_or_app. now right. Qed.

  Lemma tskip_junk_noassert stop : forall gas rest f, tskip_junk gas stop rest f <> PanicAssert.
  Proof.
    induction gas as [|g IH]; intros rest f; [discriminate|]. cbn [tskip_junk]. unfold tnth. destruct f; [discriminate|]. cbn [bind].
    destruct (kind_in _ _); [discriminate|]. destruct rest as [|k r]; [discriminate|].
    specialize (IH r max_fuel). destruct (tskip_junk g stop r max_fuel) as [[[? ?] ?]| | |]; try discriminate. congruence.
  Qed.
  Lemma tskip_rest_noassert : forall gas rest f, tskip_rest gas rest f <> PanicAssert.
  Proof.
    induction gas as [|g IH]; intros rest f; [discriminate|]. cbn [tskip_rest]. unfold tnth. destruct f; [discriminate|]. cbn [bind].
    destruct (kind_eqb (look rest) K_Eof) eqn:E; [discriminate|]. destruct rest as [|k r]; [now rewrite kind_eqb_refl in E|]. cbn [tadvance bind].
    specialize (IH r max_fuel). destruct (tskip_rest g r max_fuel) as [[[? ?] ?]| | |]; try discriminate. congruence.
  Qed.

  Lemma ex_noassert gas :
    (forall s rest f, f <= max_fuel -> ~ In K_Eof rest -> calls_ok s = true -> ex G gas s rest f <> PanicAssert) /\
    (forall a rest f, f <= max_fuel -> ~ In K_Eof rest -> calls_ok_arms a = true -> ex_arms G gas (look rest) a rest f <> PanicAssert) /\
    (forall r rest f, f <= max_fuel -> ~ In K_Eof rest -> G r <> None -> ex_rule G gas r rest f <> PanicAssert).
  Proof.
    induction gas as [|g (IHs & IHa & IHr)]; [repeat split; intros; discriminate|]. split; [|split].
    - intros s rest f Hf Hn Hok. destruct s; cbn [ex]; cbn [calls_ok] in Hok.
      + discriminate.
      + apply andb_true_iff in Hok as [Ha Hb].
        destruct (ex G g s1 rest f) as [[ret [[ts rest1] f1]]| | |] eqn:E; cbn [bind]; try discriminate.
        2:{ exfalso. revert E. now apply IHs. }
        destruct ret; [discriminate|]. apply (proj1 (ex_reads G g)) in E; [|assumption].
        assert (K : ex G g s2 rest1 f1 <> PanicAssert) by (apply IHs; [apply E|eapply reads_noeof; eassumption|assumption]).
        destruct (ex G g s2 rest1 f1) as [[? [[? ?] ?]]| | |]; try discriminate. congruence.
      + unfold texpect, tnth. destruct f; [discriminate|]. cbn [bind].
        destruct (kind_eqb_spec (look rest) k) as [<-|]; [|discriminate].
        destruct rest; [|discriminate]. cbn in Hok. discriminate.
      + assert (K : ex_rule G g r rest f <> PanicAssert) by (apply IHr; [assumption..|destruct (G r); [discriminate|discriminate Hok]]).
        destruct (ex_rule G g r rest f); try discriminate. congruence.
      + unfold tnth. destruct f; [discriminate|]. cbn [bind]. destruct (kind_in _ _); [|discriminate]. apply IHs; [lia|assumption..].
      + unfold tnth. destruct f; [discriminate|]. cbn [bind]. destruct (negb _ && _); [|discriminate].
        unfold terror_until, tnth. destruct f; [discriminate|]. cbn [bind]. destruct (kind_in _ _ || _); [discriminate|].
        pose proof (tskip_junk_noassert fs g rest f). destruct (tskip_junk g fs rest f) as [[[? ?] ?]| | |]; try discriminate. congruence.
      + unfold tnth. destruct f; [discriminate|]. cbn [bind]. destruct (kind_in _ _); [|discriminate].
        destruct (ex G g s rest f) as [[ret [[ts rest1] f1]]| | |] eqn:E; cbn [bind]; try discriminate.
        2:{ exfalso. revert E. apply IHs; [lia|assumption..]. }
        destruct ret; [discriminate|]. apply (proj1 (ex_reads G g)) in E; [|lia].
        destruct (length rest1 =? length rest); [discriminate|].
        assert (K : ex G g (While fs s) rest1 f1 <> PanicAssert) by (apply IHs; [apply E|eapply reads_noeof; eassumption|assumption]).
        destruct (ex G g (While fs s) rest1 f1) as [[? [[? ?] ?]]| | |]; try discriminate. congruence.
      + unfold tnth. destruct f; [discriminate|]. cbn [bind]. apply IHa; [lia|assumption..].
    - intros a rest f Hf Hn Hok. destruct a; cbn [ex_arms]; cbn [calls_ok_arms] in Hok.
      + apply andb_true_iff in Hok as [Hs Ha]. destruct (kind_in _ _); [apply IHs|apply IHa]; assumption.
      + destruct (kind_eqb (look rest) K_Eof) eqn:E; [discriminate|]. destruct d; cbn; [discriminate|].
        unfold tawe, tnth. destruct f; [discriminate|]. cbn [bind]. destruct (kind_in _ _); [discriminate|].
        destruct rest; [now rewrite kind_eqb_refl in E|discriminate].
    - intros r rest f Hf Hn Hr. cbn [ex_rule]. destruct (G r) as [R|] eqn:ER; [|congruence]. apply Gok in ER.
      assert (K : forall f0, f0 <= max_fuel ->
        (let* (ret, (ts, rest, f)) := ex G g (r_body R) rest f0 in
          if ret then Ok ([PNode (r_kind R) ts; PNode K_Error []], rest, f)
          else if r_unit R then
            let* (c, f) := tnth rest f in
            if kind_eqb c K_Eof then Ok ([PNode (r_kind R) ts], rest, f)
            else let* (us, rest, f) := tskip_rest g rest f in
                 Ok ([PNode (r_kind R) (ts ++ [PNode K_Error us])], rest, f)
          else Ok ([PNode (r_kind R) ts], rest, f)) <> PanicAssert).
      { intros f0 Hf0. assert (K : ex G g (r_body R) rest f0 <> PanicAssert) by (apply IHs; assumption).
        destruct (ex G g (r_body R) rest f0) as [[ret [[ts rest1] f1]]| | |] eqn:E; cbn [bind]; try discriminate; [|congruence].
        destruct ret; [discriminate|]. destruct (r_unit R); [|discriminate].
        unfold tnth. destruct f1; [discriminate|]. cbn [bind]. destruct (kind_eqb _ _); [discriminate|].
        pose proof (tskip_rest_noassert g rest1 f1). destruct (tskip_rest g rest1 f1) as [[[? ?] ?]| | |]; try discriminate. congruence. }
      destruct (r_escape R) as [fs|].
      + unfold tnth. destruct f as [|f]; [discriminate|]. cbn [bind]. destruct (kind_in _ _); [|discriminate]. apply K; lia.
      + cbn [bind]. now apply K.
  Qed.
End NoAssert.
