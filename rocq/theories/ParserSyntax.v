(** The statement forms that occur in crates/sparql-parser/src/parser/grammar.rs (all of
    them: tools/grammar2coq.py fails on anything else).  The file is generated code; the
    generator's templates are in crates/sparql-parser/generator/mod.rs:57-196. *)
From Verif Require Import Kinds.

(** the catch-all arm of a match *)
Inductive dflt :=
| DSkip                              (* _ => {} *)
| DErr (expected : list kind).       (* _ => { p.advance_with_error(vec![..]); } *)

Inductive stmt :=
| Skip
| Seq (a b : stmt)
| Expect (k : kind)                  (* p.expect(K); *)
| Call (r : kind)                    (* parse_R(p); *)
| If (fs : list kind) (s : stmt)     (* if p.at_any(&[fs]) { s } *)
| Sync (fs : list kind)              (* if !p.at_any(&[fs]) && !p.eof() { p.error_until(vec![fs], &[fs]); } *)
| While (fs : list kind) (s : stmt)  (* while [fs].contains(&p.nth(0)) { let checkpoint = p.pos(); s;
                                        if p.pos() == checkpoint { break; } } *)
| Match (a : arms)                   (* match p.nth(0) { arms } *)
with arms :=
| Arm (fs : list kind) (s : stmt) (a : arms)   (* fs => { s } *)
| ArmEnd (d : dflt).                 (* Eof => { p.close(marker, SELF); let marker = p.open();
                                        p.close(marker, Error); return; }   _ => d *)

(** fn parse_X(p) {
      if !p.at_any(&[escape]) { return; }          -- only if [r_escape] is given
      let marker = p.open();
      body
      if !p.at(Eof) { let error_marker = p.open(); while !p.at(Eof) { p.advance(); }
                      p.close(error_marker, Error); }   -- only if [r_unit]
      p.close(marker, X); } *)
Record rule := mkrule {
  r_kind : kind;
  r_escape : option (list kind);
  r_body : stmt;
  r_unit : bool
}.
