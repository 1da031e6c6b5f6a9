(** Model of crates/sparql-parser/src/parser/mod.rs: the parser runtime, the
    interpretation of the generated grammar functions, event post-processing and tree
    construction.

    Simplifications:
    - the parser only looks at token kinds, so [Parser.tokens] is a list of kinds; texts
      come back in [build_tree];
    - [fuel : Cell<u32>] and [pos : usize] are [nat];
    - loops and recursion are driven by [gas]; running out of it is [NoGas], which is
      proved never to happen. *)
From Coq Require Import List Arith Bool.
Import ListNotations.
From Verif Require Import Kinds ParserSyntax.

(** mod.rs:200-206 enum Event *)
Inductive event :=
| Open (k : kind)
| Error (expected : list kind)
| Close
| Advance.

(** mod.rs:10-15 struct Parser *)
Record parser := mkparser {
  p_tokens : list kind;
  p_pos : nat;
  p_fuel : nat;
  p_events : list event
}.

Inductive res (A : Type) :=
| Ok (a : A)
| PanicStuck      (* nth: panic!("parser is stuck") *)
| PanicAssert     (* advance: assert!(!self.eof()) *)
| NoGas.
Arguments Ok {A} a.
Arguments PanicStuck {A}.
Arguments PanicAssert {A}.
Arguments NoGas {A}.
Definition bind {A B} (x : res A) (f : A -> res B) : res B :=
  match x with Ok a => f a | PanicStuck => PanicStuck | PanicAssert => PanicAssert | NoGas => NoGas end.
Notation "'let*' x := a 'in' b" := (bind a (fun x => b)) (at level 200, x pattern, right associativity).

Definition max_fuel : nat := 1024.

(** mod.rs:189-197 Parser::new *)
Definition new_parser (input : list kind) : parser := mkparser input 0 max_fuel [].

Definition push (e : event) (p : parser) : parser :=
  mkparser (p_tokens p) (p_pos p) (p_fuel p) (p_events p ++ [e]).
(** mod.rs:217-225 open: the index of the placeholder, and the parser *)
Definition open (p : parser) : nat * parser := (length (p_events p), push (Open K_Error) p).
Fixpoint set_nth {A} (n : nat) (x : A) (l : list A) : list A :=
  match l with
  | [] => []
  | y :: r => match n with 0 => x :: r | S n => y :: set_nth n x r end
  end.
(** mod.rs:227-230 close *)
Definition close (m : nat) (k : kind) (p : parser) : parser :=
  push Close (mkparser (p_tokens p) (p_pos p) (p_fuel p) (set_nth m (Open k) (p_events p))).
(** mod.rs:239-241 eof *)
Definition eof (p : parser) : bool := p_pos p =? length (p_tokens p).
(** mod.rs:232-237 advance *)
Definition advance (p : parser) : res parser :=
  if eof p then PanicAssert
  else Ok (mkparser (p_tokens p) (S (p_pos p)) max_fuel (p_events p ++ [Advance])).
(** mod.rs:243-251 nth(0) *)
Definition nth0 (p : parser) : res (kind * parser) :=
  match p_fuel p with
  | 0 => PanicStuck
  | S f => Ok (match nth_error (p_tokens p) (p_pos p) with Some k => k | None => K_Eof end,
               mkparser (p_tokens p) (p_pos p) f (p_events p))
  end.
(** mod.rs:253-255 at *)
Definition at_ (k : kind) (p : parser) : res (bool * parser) :=
  let* (c, p) := nth0 p in Ok (kind_eqb c k, p).
(** mod.rs:257-260 at_any; also [[..].contains(&p.nth(0))] *)
Definition at_any (ks : list kind) (p : parser) : res (bool * parser) :=
  let* (c, p) := nth0 p in Ok (kind_in c ks, p).
(** mod.rs:262-269 eat *)
Definition eat (k : kind) (p : parser) : res (bool * parser) :=
  let* (b, p) := at_ k p in
  if b then let* p := advance p in Ok (true, p) else Ok (false, p).
(** mod.rs:271-278 expect *)
Definition expect (k : kind) (p : parser) : res parser :=
  let* (b, p) := eat k p in
  if b then Ok p else Ok (push (Error [k]) p).
(** mod.rs:210 RECOVERY_TOKENS *)
Definition recovery_tokens : list kind := [K_WHERE; K_LCurly; K_RCurly].
(** mod.rs:280-291 advance_with_error *)
Definition advance_with_error (expected : list kind) (p : parser) : res parser :=
  let p := push (Error expected) p in
  let* (b, p) := at_any recovery_tokens p in
  if b then Ok p
  else let '(m, p) := open p in
       let* p := advance p in
       Ok (close m K_Error p).
(** mod.rs:298-300  while !self.at_any(recovery) && !self.eof() { self.advance(); } *)
Fixpoint skip_junk (gas : nat) (stop : list kind) (p : parser) : res parser :=
  match gas with
  | 0 => NoGas
  | S g =>
    let* (b, p) := at_any stop p in
    if negb b && negb (eof p) then let* p := advance p in skip_junk g stop p
    else Ok p
  end.
(** mod.rs:293-302 error_until *)
Definition error_until (gas : nat) (expected stop : list kind) (p : parser) : res parser :=
  let p := push (Error expected) p in
  let* (b, p) := at_any stop p in
  if b || eof p then Ok p
  else let '(m, p) := open p in
       let* p := skip_junk gas stop p in
       Ok (close m K_Error p).
(** grammar.rs:9-11  while !p.at(SyntaxKind::Eof) { p.advance(); } *)
Fixpoint skip_rest (gas : nat) (p : parser) : res parser :=
  match gas with
  | 0 => NoGas
  | S g =>
    let* (b, p) := at_ K_Eof p in
    if b then Ok p else let* p := advance p in skip_rest g p
  end.

(** the catch-all arm *)
Definition exec_dflt (d : dflt) (p : parser) : res parser :=
  match d with
  | DSkip => Ok p
  | DErr e => advance_with_error e p
  end.

(** Interpretation of the statements of function [me], whose own marker is [m].
    [Ok (true, p)] means that the statement executed [return]. *)
Fixpoint exec (G : kind -> option rule) (gas : nat) (me : kind) (m : nat) (s : stmt) (p : parser) {struct gas}
  : res (bool * parser) :=
  match gas with
  | 0 => NoGas
  | S g =>
    match s with
    | Skip => Ok (false, p)
    | Seq a b =>
      let* (ret, p) := exec G g me m a p in
      if ret then Ok (true, p) else exec G g me m b p
    | Expect k => let* p := expect k p in Ok (false, p)
    | Call r => let* p := parse_rule G g r p in Ok (false, p)
    | If fs s =>
      let* (b, p) := at_any fs p in
      if b then exec G g me m s p else Ok (false, p)
    | Sync fs =>
      let* (b, p) := at_any fs p in
      if negb b && negb (eof p) then let* p := error_until g fs fs p in Ok (false, p)
      else Ok (false, p)
    | While fs s =>
      let* (b, p) := at_any fs p in
      if b then
        let checkpoint := p_pos p in
        let* (ret, p) := exec G g me m s p in
        if ret then Ok (true, p)
        else if p_pos p =? checkpoint then Ok (false, p)
        else exec G g me m (While fs s) p
      else Ok (false, p)
    | Match a =>
      let* (c, p) := nth0 p in exec_arms G g me m c a p
    end
  end
with exec_arms (G : kind -> option rule) (gas : nat) (me : kind) (m : nat) (c : kind) (a : arms) (p : parser) {struct gas}
  : res (bool * parser) :=
  match gas with
  | 0 => NoGas
  | S g =>
    match a with
    | Arm fs s a => if kind_in c fs then exec G g me m s p else exec_arms G g me m c a p
    | ArmEnd d =>
      if kind_eqb c K_Eof then
        let p := close m me p in
        let '(m', p) := open p in
        Ok (true, close m' K_Error p)
      else let* p := exec_dflt d p in Ok (false, p)
    end
  end
with parse_rule (G : kind -> option rule) (gas : nat) (r : kind) (p : parser) {struct gas} : res parser :=
  match gas with
  | 0 => NoGas
  | S g =>
    match G r with
    | None => PanicAssert      (* no such function: would not compile *)
    | Some R =>
      let* (go, p) := match r_escape R with
                       | Some fs => at_any fs p
                       | None => Ok (true, p)
                       end in
      if go then
        let '(m, p) := open p in
        let* (ret, p) := exec G g (r_kind R) m (r_body R) p in
        if ret then Ok p
        else
          let* p := (if r_unit R then
                       let* (b, p) := at_ K_Eof p in
                       if b then Ok p
                       else let '(m', p) := open p in
                            let* p := skip_rest g p in
                            Ok (close m' K_Error p)
                     else Ok p) in
          Ok (close m (r_kind R) p)
      else Ok p
    end
  end.

(** mod.rs:312-320 TopEntryPoint::parse *)
Definition run_parser (G : kind -> option rule) (gas : nat) (entry : kind) (input : list kind) : res (list event) :=
  let* p := parse_rule G gas entry (new_parser input) in Ok (p_events p).

(** ---- mod.rs:56-88 remove_empty_nodes ---- *)

(** what happens to the stack of (index, has_tokens); [rem] collects the indices to drop *)
Definition mark_parent (st : list (nat * bool)) : list (nat * bool) :=
  match st with (i, _) :: r => (i, true) :: r | [] => [] end.
Fixpoint empty_scan (i : nat) (evs : list event) (st : list (nat * bool)) (rem : list nat) : option (list nat) :=
  match evs with
  | [] => Some rem
  | Open _ :: r => empty_scan (S i) r ((i, false) :: st) rem
  | Advance :: r => empty_scan (S i) r (mark_parent st) rem
  | Close :: r =>
    match st with
    | [] => None         (* expect("Every \"Close\" event should occur after a open event") *)
    | (oi, has) :: st' =>
      if negb has && match st' with [] => false | _ => true end
      then empty_scan (S i) r st' (i :: oi :: rem)
      else if has then empty_scan (S i) r (mark_parent st') rem
      else empty_scan (S i) r st' rem
    end
  | Error _ :: r => empty_scan (S i) r st rem
  end.
Fixpoint drop_indices (i : nat) (evs : list event) (rem : list nat) : list event :=
  match evs with
  | [] => []
  | e :: r => if existsb (Nat.eqb i) rem then drop_indices (S i) r rem else e :: drop_indices (S i) r rem
  end.
Definition remove_empty_nodes (evs : list event) : option (list event) :=
  match empty_scan 0 evs [] [] with
  | Some rem => Some (drop_indices 0 evs rem)
  | None => None
  end.

(** ---- mod.rs:17-31 struct Token; the lexer attaches the byte range ---- *)
Record token := mktoken { tk : kind; ttext : list nat (* its bytes *) }.
Record ltoken := mkltoken { ltok : token; lstart : nat; lend : nat }.
Definition trivia (t : ltoken) : bool := is_trivia (tk (ltok t)).

(** rowan: GreenNode / GreenToken, a tree of nodes and tokens *)
Inductive green :=
| GToken (t : token)
| GNodeT (k : kind) (children : list green).

(** mod.rs:33-37 ParseError; the message is a function of [pe_expected] *)
Record parse_error := mkperror { pe_start : nat; pe_end : nat; pe_expected : list kind }.

(** rowan GreenNodeBuilder: the open nodes, innermost first, each with the children
    collected so far (rowan keeps one flat child list and remembers for each open node
    where its children start: the same thing).  The last frame is the virtual root whose
    children [finish] looks at. *)
Record builder := mkbuilder { b_open : list (kind * list green); b_done : list green }.
Definition b_token (t : token) (b : builder) : builder :=
  match b_open b with
  | (k, cs) :: r => mkbuilder ((k, cs ++ [GToken t]) :: r) (b_done b)
  | [] => mkbuilder [] (b_done b ++ [GToken t])
  end.
Definition b_start (k : kind) (b : builder) : builder := mkbuilder ((k, []) :: b_open b) (b_done b).
(** finish_node: [None] is the panic of [parents.pop().unwrap()] *)
Definition b_finish_node (b : builder) : option builder :=
  match b_open b with
  | [] => None
  | (k, cs) :: [] => Some (mkbuilder [] (b_done b ++ [GNodeT k cs]))
  | (k, cs) :: (k', cs') :: r => Some (mkbuilder ((k', cs' ++ [GNodeT k cs]) :: r) (b_done b))
  end.
(** finish: asserts that exactly one child is left and that it is a node *)
Definition b_finish (b : builder) : option green :=
  match b_open b, b_done b with
  | [], [GNodeT k cs] => Some (GNodeT k cs)
  | _, _ => None
  end.

(** build_tree's state: tokens before the cursor (latest first), tokens from the cursor
    on, the builder and the errors so far *)
Record bstate := mkbstate { bs_past : list ltoken; bs_next : list ltoken; bs_b : builder; bs_errs : list parse_error }.

(** mod.rs:107-113 (and 154-161, 170-177)  while the next token is trivia, emit it *)
Fixpoint emit_trivia (past next : list ltoken) (b : builder) : list ltoken * list ltoken * builder :=
  match next with
  | t :: r => if trivia t then emit_trivia (t :: past) r (b_token (ltok t) b) else (past, next, b)
  | [] => (past, next, b)
  end.
(** mod.rs:117-136: span of an error reported at the cursor *)
Definition error_span (past next : list ltoken) : nat * nat :=
  match find (fun t => negb (trivia t)) next with
  | Some t => (lstart t, lend t)
  | None => match find (fun t => negb (trivia t)) past with
            | Some t => (lend t, lend t)
            | None => (0, 0)
            end
  end.
Definition is_unit (k : kind) : bool := kind_eqb k K_QueryUnit || kind_eqb k K_UpdateUnit.
(** one iteration of the loop mod.rs:101-168; [None]: panic (index out of bounds or an
    unbalanced builder) *)
Definition build_step (e : event) (s : bstate) : option bstate :=
  match e with
  | Open k =>
    let '(past, next, b) := if is_unit k then (bs_past s, bs_next s, bs_b s) else emit_trivia (bs_past s) (bs_next s) (bs_b s) in
    Some (mkbstate past next (b_start k b) (bs_errs s))
  | Error e =>
    let '(a, z) := error_span (bs_past s) (bs_next s) in
    Some (mkbstate (bs_past s) (bs_next s) (bs_b s) (bs_errs s ++ [mkperror a z e]))
  | Close =>
    match b_finish_node (bs_b s) with
    | Some b => Some (mkbstate (bs_past s) (bs_next s) b (bs_errs s))
    | None => None
    end
  | Advance =>
    let '(past, next, b) := emit_trivia (bs_past s) (bs_next s) (bs_b s) in
    match next with
    | t :: r => Some (mkbstate (t :: past) r (b_token (ltok t) b) (bs_errs s))
    | [] => None
    end
  end.
Fixpoint build_steps (evs : list event) (s : bstate) : option bstate :=
  match evs with
  | [] => Some s
  | e :: r => match build_step e s with Some s => build_steps r s | None => None end
  end.
(** mod.rs:90-187 build_tree.  [&events[..events.len() - 1]] panics on an empty list *)
Definition build_tree (toks : list ltoken) (evs : list event) : option (green * list parse_error) :=
  match rev evs with
  | [] => None
  | last :: _ =>
    match build_steps (removelast evs) (mkbstate [] toks (mkbuilder [] []) []) with
    | None => None
    | Some s =>
      match last with
      | Close =>
        let '(past, next, b) := emit_trivia (bs_past s) (bs_next s) (bs_b s) in
        match b_finish_node b with
        | Some b => match b_finish b with Some g => Some (g, bs_errs s) | None => None end
        | None => None
        end
      | _ => None
      end
    end
  end.

(** mod.rs:39-48 parse_text, after lexing (lex is mod.rs:323-336) *)
Definition parse_tokens (G : kind -> option rule) (gas : nat) (entry : kind) (toks : list ltoken)
  : res (option (green * list parse_error)) :=
  let input := map (fun t => tk (ltok t)) (filter (fun t => negb (trivia t)) toks) in
  let* evs := run_parser G gas entry input in
  Ok (match remove_empty_nodes evs with Some evs => build_tree toks evs | None => None end).

(** mod.rs:339-361 guess_operation_type, after lexing *)
Definition query_keywords : list kind := [K_SELECT; K_CONSTRUCT; K_ASK; K_DESCRIBE].
Definition update_keywords : list kind :=
  [K_LOAD; K_CLEAR; K_DROP; K_CREATE; K_ADD; K_MOVE; K_COPY; K_INSERT; K_INSERT_DATA;
   K_DELETE; K_DELETE_DATA; K_DELETE_WHERE].
Fixpoint guess_operation_type (toks : list ltoken) : option kind :=
  match toks with
  | [] => None
  | t :: r =>
    if kind_in (tk (ltok t)) query_keywords then Some K_QueryUnit
    else if kind_in (tk (ltok t)) update_keywords then Some K_UpdateUnit
    else guess_operation_type r
  end.
(** lib.rs:25-30 parse, after lexing *)
Definition entry_of (toks : list ltoken) : kind :=
  match guess_operation_type toks with
  | Some k => k
  | None => K_QueryUnit
  end.
Definition parse (G : kind -> option rule) (gas : nat) (toks : list ltoken) :=
  parse_tokens G gas (entry_of toks) toks.
