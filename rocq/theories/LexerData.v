(** Generated by tools/lexer2coq.py from crates/sparql-parser/src/syntax_kind/generated.rs: the token
    definitions of the logos lexer, in declaration order.  A rule is a kind, a regular expression and
    whether the match must end at an ASCII word boundary. *)
From Coq Require Import List NArith.
Import ListNotations.
From Verif Require Import Kinds LexerRegex.
Local Open Scope N_scope.

Definition class_0 : list (N * N) :=
  [(33, 33); (35, 59); (61, 61); (63, 91); (93, 93); (95, 95); (97, 122); (126, 1114111)].
Definition class_1 : list (N * N) :=
  [(65, 90); (97, 122); (192, 214); (216, 246); (248, 767); (880, 893); (895, 8191); (8204, 8205); (8304, 8591); (11264, 12271); (12289, 55295); (63744, 64975); (65008, 65533); (65536, 983039)].
Definition class_2 : list (N * N) :=
  [(45, 46); (48, 57); (65, 90); (95, 95); (97, 122); (183, 183); (192, 214); (216, 246); (248, 893); (895, 8191); (8204, 8205); (8255, 8256); (8304, 8591); (11264, 12271); (12289, 55295); (63744, 64975); (65008, 65533); (65536, 983039)].
Definition class_3 : list (N * N) :=
  [(45, 45); (48, 57); (65, 90); (95, 95); (97, 122); (183, 183); (192, 214); (216, 246); (248, 893); (895, 8191); (8204, 8205); (8255, 8256); (8304, 8591); (11264, 12271); (12289, 55295); (63744, 64975); (65008, 65533); (65536, 983039)].
Definition class_4 : list (N * N) :=
  [(9, 13); (32, 32); (133, 133); (160, 160); (5760, 5760); (8192, 8202); (8232, 8233); (8239, 8239); (8287, 8287); (12288, 12288)].
Definition class_5 : list (N * N) :=
  [(48, 57); (65, 90); (95, 95); (97, 122); (192, 214); (216, 246); (248, 767); (880, 893); (895, 8191); (8204, 8205); (8304, 8591); (11264, 12271); (12289, 55295); (63744, 64975); (65008, 65533); (65536, 983039)].
Definition class_6 : list (N * N) :=
  [(48, 57); (65, 90); (95, 95); (97, 122); (183, 183); (192, 214); (216, 246); (248, 893); (895, 8191); (8204, 8205); (8255, 8256); (8304, 8591); (11264, 12271); (12289, 55295); (63744, 64975); (65008, 65533); (65536, 983039)].
Definition class_7 : list (N * N) :=
  [(48, 57); (1632, 1641); (1776, 1785); (1984, 1993); (2406, 2415); (2534, 2543); (2662, 2671); (2790, 2799); (2918, 2927); (3046, 3055); (3174, 3183); (3302, 3311); (3430, 3439); (3558, 3567); (3664, 3673); (3792, 3801); (3872, 3881); (4160, 4169); (4240, 4249); (6112, 6121); (6160, 6169); (6470, 6479); (6608, 6617); (6784, 6793); (6800, 6809); (6992, 7001); (7088, 7097); (7232, 7241); (7248, 7257); (42528, 42537); (43216, 43225); (43264, 43273); (43472, 43481); (43504, 43513); (43600, 43609); (44016, 44025); (65296, 65305); (66720, 66729); (68912, 68921); (68928, 68937); (69734, 69743); (69872, 69881); (69942, 69951); (70096, 70105); (70384, 70393); (70736, 70745); (70864, 70873); (71248, 71257); (71360, 71369); (71376, 71395); (71472, 71481); (71904, 71913); (72016, 72025); (72688, 72697); (72784, 72793); (73040, 73049); (73120, 73129); (73552, 73561); (92768, 92777); (92864, 92873); (93008, 93017); (93552, 93561); (118000, 118009); (120782, 120831); (123200, 123209); (123632, 123641); (124144, 124153); (124401, 124410); (125264, 125273); (130032, 130041)].
Definition class_8 : list (N * N) :=
  [(0, 9); (11, 12); (14, 38); (40, 91); (93, 1114111)].
Definition class_9 : list (N * N) :=
  [(34, 34); (47, 47); (92, 92); (98, 98); (102, 102); (110, 110); (114, 114); (116, 116)].
Definition class_10 : list (N * N) :=
  [(48, 58); (65, 90); (95, 95); (97, 122); (192, 214); (216, 246); (248, 767); (880, 893); (895, 8191); (8204, 8205); (8304, 8591); (11264, 12271); (12289, 55295); (63744, 64975); (65008, 65533); (65536, 983039)].
Definition class_11 : list (N * N) :=
  [(33, 33); (35, 47); (59, 59); (61, 61); (63, 64); (95, 95); (126, 126)].
Definition class_12 : list (N * N) :=
  [(45, 46); (48, 58); (65, 90); (95, 95); (97, 122); (183, 183); (192, 214); (216, 246); (248, 893); (895, 8191); (8204, 8205); (8255, 8256); (8304, 8591); (11264, 12271); (12289, 55295); (63744, 64975); (65008, 65533); (65536, 983039)].
Definition class_13 : list (N * N) :=
  [(45, 45); (48, 58); (65, 90); (95, 95); (97, 122); (183, 183); (192, 214); (216, 246); (248, 893); (895, 8191); (8204, 8205); (8255, 8256); (8304, 8591); (11264, 12271); (12289, 55295); (63744, 64975); (65008, 65533); (65536, 983039)].

Definition lexer_rules : list (kind * re * bool) := [
  (K_WHITESPACE, (Cat (Cls [(9, 10); (12, 13); (32, 32)]) (Star (Cls [(9, 10); (12, 13); (32, 32)]))), false) (* generated.rs:9  [ \t\n\r\f]+ *);
  (K_Comment, (Cat (Chr 35) (Star (Cls [(0, 9); (11, 12); (14, 1114111)]))), false) (* generated.rs:11  #[^\r\n]* *);
  (K_BASE, (Cat (Cls [(66, 66); (98, 98)]) (Cat (Cls [(65, 65); (97, 97)]) (Cat (Cls [(83, 83); (115, 115); (383, 383)]) (Cls [(69, 69); (101, 101)])))), false) (* generated.rs:13  BASE *);
  (K_IRIREF, (Cat (Chr 60) (Cat (Star (Cls class_0)) (Chr 62))), false) (* generated.rs:15  <[^<>\''{}|^`\\\u{00}-\u{20}]*> *);
  (K_PREFIX, (Cat (Cls [(80, 80); (112, 112)]) (Cat (Cls [(82, 82); (114, 114)]) (Cat (Cls [(69, 69); (101, 101)]) (Cat (Cls [(70, 70); (102, 102)]) (Cat (Cls [(73, 73); (105, 105)]) (Cls [(88, 88); (120, 120)])))))), false) (* generated.rs:17  PREFIX *);
  (K_PNAME_NS, (Cat (Alt Eps (Cat (Cls class_1) (Alt Eps (Cat (Star (Cls class_2)) (Cls class_3))))) (Chr 58)), false) (* generated.rs:19  (?:(?:[A-Z]|[a-z]|[\u{00C0}-\u{00D6}]|[\u{00D8}-\u{00F6}]... *);
  (K_SELECT, (Cat (Cls [(83, 83); (115, 115); (383, 383)]) (Cat (Cls [(69, 69); (101, 101)]) (Cat (Cls [(76, 76); (108, 108)]) (Cat (Cls [(69, 69); (101, 101)]) (Cat (Cls [(67, 67); (99, 99)]) (Cls [(84, 84); (116, 116)])))))), false) (* generated.rs:21  SELECT *);
  (K_DISTINCT, (Cat (Cls [(68, 68); (100, 100)]) (Cat (Cls [(73, 73); (105, 105)]) (Cat (Cls [(83, 83); (115, 115); (383, 383)]) (Cat (Cls [(84, 84); (116, 116)]) (Cat (Cls [(73, 73); (105, 105)]) (Cat (Cls [(78, 78); (110, 110)]) (Cat (Cls [(67, 67); (99, 99)]) (Cls [(84, 84); (116, 116)])))))))), false) (* generated.rs:23  DISTINCT *);
  (K_REDUCED, (Cat (Cls [(82, 82); (114, 114)]) (Cat (Cls [(69, 69); (101, 101)]) (Cat (Cls [(68, 68); (100, 100)]) (Cat (Cls [(85, 85); (117, 117)]) (Cat (Cls [(67, 67); (99, 99)]) (Cat (Cls [(69, 69); (101, 101)]) (Cls [(68, 68); (100, 100)]))))))), false) (* generated.rs:25  REDUCED *);
  (K_LParen, (Chr 40), false) (* generated.rs:27  ( *);
  (K_AS, (Cat (Cls [(65, 65); (97, 97)]) (Cls [(83, 83); (115, 115); (383, 383)])), false) (* generated.rs:29  AS *);
  (K_RParen, (Chr 41), false) (* generated.rs:31  ) *);
  (K_Star, (Chr 42), false) (* generated.rs:33  * *);
  (K_CONSTRUCT, (Cat (Cls [(67, 67); (99, 99)]) (Cat (Cls [(79, 79); (111, 111)]) (Cat (Cls [(78, 78); (110, 110)]) (Cat (Cls [(83, 83); (115, 115); (383, 383)]) (Cat (Cls [(84, 84); (116, 116)]) (Cat (Cls [(82, 82); (114, 114)]) (Cat (Cls [(85, 85); (117, 117)]) (Cat (Cls [(67, 67); (99, 99)]) (Cls [(84, 84); (116, 116)]))))))))), false) (* generated.rs:35  CONSTRUCT *);
  (K_WHERE, (Cat (Cls [(87, 87); (119, 119)]) (Cat (Cls [(72, 72); (104, 104)]) (Cat (Cls [(69, 69); (101, 101)]) (Cat (Cls [(82, 82); (114, 114)]) (Cls [(69, 69); (101, 101)]))))), false) (* generated.rs:37  WHERE *);
  (K_LCurly, (Chr 123), false) (* generated.rs:39  { *);
  (K_RCurly, (Chr 125), false) (* generated.rs:41  } *);
  (K_LCurlyPipe, (Cat (Chr 123) (Chr 124)), false) (* generated.rs:43  {| *);
  (K_PipeRCurly, (Cat (Chr 124) (Chr 125)), false) (* generated.rs:45  |} *);
  (K_DESCRIBE, (Cat (Cls [(68, 68); (100, 100)]) (Cat (Cls [(69, 69); (101, 101)]) (Cat (Cls [(83, 83); (115, 115); (383, 383)]) (Cat (Cls [(67, 67); (99, 99)]) (Cat (Cls [(82, 82); (114, 114)]) (Cat (Cls [(73, 73); (105, 105)]) (Cat (Cls [(66, 66); (98, 98)]) (Cls [(69, 69); (101, 101)])))))))), false) (* generated.rs:47  DESCRIBE *);
  (K_ASK, (Cat (Cls [(65, 65); (97, 97)]) (Cat (Cls [(83, 83); (115, 115); (383, 383)]) (Cls [(75, 75); (107, 107); (8490, 8490)]))), false) (* generated.rs:49  ASK *);
  (K_FROM, (Cat (Cls [(70, 70); (102, 102)]) (Cat (Cls [(82, 82); (114, 114)]) (Cat (Cls [(79, 79); (111, 111)]) (Cls [(77, 77); (109, 109)])))), false) (* generated.rs:51  FROM *);
  (K_NAMED, (Cat (Cls [(78, 78); (110, 110)]) (Cat (Cls [(65, 65); (97, 97)]) (Cat (Cls [(77, 77); (109, 109)]) (Cat (Cls [(69, 69); (101, 101)]) (Cls [(68, 68); (100, 100)]))))), false) (* generated.rs:53  NAMED *);
  (K_GROUP, (Cat (Cls [(71, 71); (103, 103)]) (Cat (Cls [(82, 82); (114, 114)]) (Cat (Cls [(79, 79); (111, 111)]) (Cat (Cls [(85, 85); (117, 117)]) (Cls [(80, 80); (112, 112)]))))), false) (* generated.rs:55  GROUP *);
  (K_BY, (Cat (Cls [(66, 66); (98, 98)]) (Cls [(89, 89); (121, 121)])), false) (* generated.rs:57  BY *);
  (K_HAVING, (Cat (Cls [(72, 72); (104, 104)]) (Cat (Cls [(65, 65); (97, 97)]) (Cat (Cls [(86, 86); (118, 118)]) (Cat (Cls [(73, 73); (105, 105)]) (Cat (Cls [(78, 78); (110, 110)]) (Cls [(71, 71); (103, 103)])))))), false) (* generated.rs:59  HAVING *);
  (K_ORDER, (Cat (Cls [(79, 79); (111, 111)]) (Cat (Cls [(82, 82); (114, 114)]) (Cat (Cls [(68, 68); (100, 100)]) (Cat (Cls [(69, 69); (101, 101)]) (Cls [(82, 82); (114, 114)]))))), false) (* generated.rs:61  ORDER *);
  (K_ASC, (Cat (Cls [(65, 65); (97, 97)]) (Cat (Cls [(83, 83); (115, 115); (383, 383)]) (Cls [(67, 67); (99, 99)]))), false) (* generated.rs:63  ASC *);
  (K_DESC, (Cat (Cls [(68, 68); (100, 100)]) (Cat (Cls [(69, 69); (101, 101)]) (Cat (Cls [(83, 83); (115, 115); (383, 383)]) (Cls [(67, 67); (99, 99)])))), false) (* generated.rs:65  DESC *);
  (K_LIMIT, (Cat (Cls [(76, 76); (108, 108)]) (Cat (Cls [(73, 73); (105, 105)]) (Cat (Cls [(77, 77); (109, 109)]) (Cat (Cls [(73, 73); (105, 105)]) (Cls [(84, 84); (116, 116)]))))), false) (* generated.rs:67  LIMIT *);
  (K_OFFSET, (Cat (Cls [(79, 79); (111, 111)]) (Cat (Cls [(70, 70); (102, 102)]) (Cat (Cls [(70, 70); (102, 102)]) (Cat (Cls [(83, 83); (115, 115); (383, 383)]) (Cat (Cls [(69, 69); (101, 101)]) (Cls [(84, 84); (116, 116)])))))), false) (* generated.rs:69  OFFSET *);
  (K_VALUES, (Cat (Cls [(86, 86); (118, 118)]) (Cat (Cls [(65, 65); (97, 97)]) (Cat (Cls [(76, 76); (108, 108)]) (Cat (Cls [(85, 85); (117, 117)]) (Cat (Cls [(69, 69); (101, 101)]) (Cls [(83, 83); (115, 115); (383, 383)])))))), false) (* generated.rs:71  VALUES *);
  (K_Semicolon, (Chr 59), false) (* generated.rs:73  ; *);
  (K_LOAD, (Cat (Cls [(76, 76); (108, 108)]) (Cat (Cls [(79, 79); (111, 111)]) (Cat (Cls [(65, 65); (97, 97)]) (Cls [(68, 68); (100, 100)])))), false) (* generated.rs:75  LOAD *);
  (K_SILENT, (Cat (Cls [(83, 83); (115, 115); (383, 383)]) (Cat (Cls [(73, 73); (105, 105)]) (Cat (Cls [(76, 76); (108, 108)]) (Cat (Cls [(69, 69); (101, 101)]) (Cat (Cls [(78, 78); (110, 110)]) (Cls [(84, 84); (116, 116)])))))), false) (* generated.rs:77  SILENT *);
  (K_INTO, (Cat (Cls [(73, 73); (105, 105)]) (Cat (Cls [(78, 78); (110, 110)]) (Cat (Cls [(84, 84); (116, 116)]) (Cls [(79, 79); (111, 111)])))), false) (* generated.rs:79  INTO *);
  (K_CLEAR, (Cat (Cls [(67, 67); (99, 99)]) (Cat (Cls [(76, 76); (108, 108)]) (Cat (Cls [(69, 69); (101, 101)]) (Cat (Cls [(65, 65); (97, 97)]) (Cls [(82, 82); (114, 114)]))))), false) (* generated.rs:81  CLEAR *);
  (K_DROP, (Cat (Cls [(68, 68); (100, 100)]) (Cat (Cls [(82, 82); (114, 114)]) (Cat (Cls [(79, 79); (111, 111)]) (Cls [(80, 80); (112, 112)])))), false) (* generated.rs:83  DROP *);
  (K_CREATE, (Cat (Cls [(67, 67); (99, 99)]) (Cat (Cls [(82, 82); (114, 114)]) (Cat (Cls [(69, 69); (101, 101)]) (Cat (Cls [(65, 65); (97, 97)]) (Cat (Cls [(84, 84); (116, 116)]) (Cls [(69, 69); (101, 101)])))))), false) (* generated.rs:85  CREATE *);
  (K_ADD, (Cat (Cls [(65, 65); (97, 97)]) (Cat (Cls [(68, 68); (100, 100)]) (Cls [(68, 68); (100, 100)]))), false) (* generated.rs:87  ADD *);
  (K_TO, (Cat (Cls [(84, 84); (116, 116)]) (Cls [(79, 79); (111, 111)])), false) (* generated.rs:89  TO *);
  (K_MOVE, (Cat (Cls [(77, 77); (109, 109)]) (Cat (Cls [(79, 79); (111, 111)]) (Cat (Cls [(86, 86); (118, 118)]) (Cls [(69, 69); (101, 101)])))), false) (* generated.rs:91  MOVE *);
  (K_COPY, (Cat (Cls [(67, 67); (99, 99)]) (Cat (Cls [(79, 79); (111, 111)]) (Cat (Cls [(80, 80); (112, 112)]) (Cls [(89, 89); (121, 121)])))), false) (* generated.rs:93  COPY *);
  (K_INSERT, (Cat (Cls [(73, 73); (105, 105)]) (Cat (Cls [(78, 78); (110, 110)]) (Cat (Cls [(83, 83); (115, 115); (383, 383)]) (Cat (Cls [(69, 69); (101, 101)]) (Cat (Cls [(82, 82); (114, 114)]) (Cls [(84, 84); (116, 116)])))))), false) (* generated.rs:95  INSERT *);
  (K_DATA, (Cat (Cls [(68, 68); (100, 100)]) (Cat (Cls [(65, 65); (97, 97)]) (Cat (Cls [(84, 84); (116, 116)]) (Cls [(65, 65); (97, 97)])))), false) (* generated.rs:97  DATA *);
  (K_INSERT_DATA, (Cat (Cls [(73, 73); (105, 105)]) (Cat (Cls [(78, 78); (110, 110)]) (Cat (Cls [(83, 83); (115, 115); (383, 383)]) (Cat (Cls [(69, 69); (101, 101)]) (Cat (Cls [(82, 82); (114, 114)]) (Cat (Cls [(84, 84); (116, 116)]) (Cat (Chr 32) (Cat (Cls [(68, 68); (100, 100)]) (Cat (Cls [(65, 65); (97, 97)]) (Cat (Cls [(84, 84); (116, 116)]) (Cls [(65, 65); (97, 97)]))))))))))), false) (* generated.rs:100  INSERT DATA *);
  (K_DELETE_DATA, (Cat (Cls [(68, 68); (100, 100)]) (Cat (Cls [(69, 69); (101, 101)]) (Cat (Cls [(76, 76); (108, 108)]) (Cat (Cls [(69, 69); (101, 101)]) (Cat (Cls [(84, 84); (116, 116)]) (Cat (Cls [(69, 69); (101, 101)]) (Cat (Cls class_4) (Cat (Star (Cls class_4)) (Cat (Cls [(68, 68); (100, 100)]) (Cat (Cls [(65, 65); (97, 97)]) (Cat (Cls [(84, 84); (116, 116)]) (Cls [(65, 65); (97, 97)])))))))))))), false) (* generated.rs:103  (?i:DELETE\s+DATA) *);
  (K_DELETE_WHERE, (Cat (Cls [(68, 68); (100, 100)]) (Cat (Cls [(69, 69); (101, 101)]) (Cat (Cls [(76, 76); (108, 108)]) (Cat (Cls [(69, 69); (101, 101)]) (Cat (Cls [(84, 84); (116, 116)]) (Cat (Cls [(69, 69); (101, 101)]) (Cat (Cls class_4) (Cat (Star (Cls class_4)) (Cat (Cls [(87, 87); (119, 119)]) (Cat (Cls [(72, 72); (104, 104)]) (Cat (Cls [(69, 69); (101, 101)]) (Cat (Cls [(82, 82); (114, 114)]) (Cls [(69, 69); (101, 101)]))))))))))))), false) (* generated.rs:105  (?i:DELETE\s+WHERE) *);
  (K_DELETE, (Cat (Cls [(68, 68); (100, 100)]) (Cat (Cls [(69, 69); (101, 101)]) (Cat (Cls [(76, 76); (108, 108)]) (Cat (Cls [(69, 69); (101, 101)]) (Cat (Cls [(84, 84); (116, 116)]) (Cls [(69, 69); (101, 101)])))))), false) (* generated.rs:107  DELETE *);
  (K_WITH, (Cat (Cls [(87, 87); (119, 119)]) (Cat (Cls [(73, 73); (105, 105)]) (Cat (Cls [(84, 84); (116, 116)]) (Cls [(72, 72); (104, 104)])))), false) (* generated.rs:109  WITH *);
  (K_USING, (Cat (Cls [(85, 85); (117, 117)]) (Cat (Cls [(83, 83); (115, 115); (383, 383)]) (Cat (Cls [(73, 73); (105, 105)]) (Cat (Cls [(78, 78); (110, 110)]) (Cls [(71, 71); (103, 103)]))))), false) (* generated.rs:111  USING *);
  (K_DEFAULT, (Cat (Cls [(68, 68); (100, 100)]) (Cat (Cls [(69, 69); (101, 101)]) (Cat (Cls [(70, 70); (102, 102)]) (Cat (Cls [(65, 65); (97, 97)]) (Cat (Cls [(85, 85); (117, 117)]) (Cat (Cls [(76, 76); (108, 108)]) (Cls [(84, 84); (116, 116)]))))))), false) (* generated.rs:113  DEFAULT *);
  (K_GRAPH, (Cat (Cls [(71, 71); (103, 103)]) (Cat (Cls [(82, 82); (114, 114)]) (Cat (Cls [(65, 65); (97, 97)]) (Cat (Cls [(80, 80); (112, 112)]) (Cls [(72, 72); (104, 104)]))))), false) (* generated.rs:115  GRAPH *);
  (K_ALL, (Cat (Cls [(65, 65); (97, 97)]) (Cat (Cls [(76, 76); (108, 108)]) (Cls [(76, 76); (108, 108)]))), false) (* generated.rs:117  ALL *);
  (K_Dot, (Chr 46), false) (* generated.rs:119  . *);
  (K_Tilde, (Chr 126), false) (* generated.rs:121  ~ *);
  (K_OPTIONAL, (Cat (Cls [(79, 79); (111, 111)]) (Cat (Cls [(80, 80); (112, 112)]) (Cat (Cls [(84, 84); (116, 116)]) (Cat (Cls [(73, 73); (105, 105)]) (Cat (Cls [(79, 79); (111, 111)]) (Cat (Cls [(78, 78); (110, 110)]) (Cat (Cls [(65, 65); (97, 97)]) (Cls [(76, 76); (108, 108)])))))))), false) (* generated.rs:123  OPTIONAL *);
  (K_SERVICE, (Cat (Cls [(83, 83); (115, 115); (383, 383)]) (Cat (Cls [(69, 69); (101, 101)]) (Cat (Cls [(82, 82); (114, 114)]) (Cat (Cls [(86, 86); (118, 118)]) (Cat (Cls [(73, 73); (105, 105)]) (Cat (Cls [(67, 67); (99, 99)]) (Cls [(69, 69); (101, 101)]))))))), false) (* generated.rs:125  SERVICE *);
  (K_BIND, (Cat (Cls [(66, 66); (98, 98)]) (Cat (Cls [(73, 73); (105, 105)]) (Cat (Cls [(78, 78); (110, 110)]) (Cls [(68, 68); (100, 100)])))), false) (* generated.rs:127  BIND *);
  (K_NIL, (Cat (Chr 40) (Cat (Star (Cls [(9, 10); (12, 13); (32, 32)])) (Chr 41))), false) (* generated.rs:129  \([ \t\n\r\f]*\) *);
  (K_UNDEF, (Cat (Cls [(85, 85); (117, 117)]) (Cat (Cls [(78, 78); (110, 110)]) (Cat (Cls [(68, 68); (100, 100)]) (Cat (Cls [(69, 69); (101, 101)]) (Cls [(70, 70); (102, 102)]))))), false) (* generated.rs:131  UNDEF *);
  (K_MINUS, (Cat (Cls [(77, 77); (109, 109)]) (Cat (Cls [(73, 73); (105, 105)]) (Cat (Cls [(78, 78); (110, 110)]) (Cat (Cls [(85, 85); (117, 117)]) (Cls [(83, 83); (115, 115); (383, 383)]))))), false) (* generated.rs:133  MINUS *);
  (K_UNION, (Cat (Cls [(85, 85); (117, 117)]) (Cat (Cls [(78, 78); (110, 110)]) (Cat (Cls [(73, 73); (105, 105)]) (Cat (Cls [(79, 79); (111, 111)]) (Cls [(78, 78); (110, 110)]))))), false) (* generated.rs:135  UNION *);
  (K_FILTER, (Cat (Cls [(70, 70); (102, 102)]) (Cat (Cls [(73, 73); (105, 105)]) (Cat (Cls [(76, 76); (108, 108)]) (Cat (Cls [(84, 84); (116, 116)]) (Cat (Cls [(69, 69); (101, 101)]) (Cls [(82, 82); (114, 114)])))))), false) (* generated.rs:137  FILTER *);
  (K_Comma, (Chr 44), false) (* generated.rs:139  , *);
  (K_a, (Chr 97), true) (* generated.rs:141  (?-u:a\b) *);
  (K_Pipe, (Chr 124), false) (* generated.rs:143  | *);
  (K_Slash, (Chr 47), false) (* generated.rs:145  / *);
  (K_Zirkumflex, (Chr 94), false) (* generated.rs:147  ^ *);
  (K_QuestionMark, (Chr 63), false) (* generated.rs:149  ? *);
  (K_Plus, (Chr 43), false) (* generated.rs:151  + *);
  (K_ExclamationMark, (Chr 33), false) (* generated.rs:153  ! *);
  (K_LBrack, (Chr 91), false) (* generated.rs:155  [ *);
  (K_RBrack, (Chr 93), false) (* generated.rs:157  ] *);
  (K_VAR1, (Cat (Chr 63) (Cat (Cls class_5) (Star (Cls class_6)))), false) (* generated.rs:159  \?(?:[A-Z]|[a-z]|[\u{00C0}-\u{00D6}]|[\u{00D8}-\u{00F6}]|... *);
  (K_VAR2, (Cat (Chr 36) (Cat (Cls class_5) (Star (Cls class_6)))), false) (* generated.rs:163  \$(?:[A-Z]|[a-z]|[\u{00C0}-\u{00D6}]|[\u{00D8}-\u{00F6}]|... *);
  (K_LANG_DIR, (Cat (Chr 64) (Cat (Cls [(65, 90); (97, 122)]) (Cat (Star (Cls [(65, 90); (97, 122)])) (Cat (Star (Cat (Chr 45) (Cat (Cls [(48, 57); (65, 90); (97, 122)]) (Star (Cls [(48, 57); (65, 90); (97, 122)]))))) (Alt Eps (Cat (Chr 45) (Cat (Chr 45) (Cat (Cls [(65, 90); (97, 122)]) (Star (Cls [(65, 90); (97, 122)])))))))))), false) (* generated.rs:167  @[a-zA-Z]+(?:-[a-zA-Z0-9]+)*(?:--[a-zA-Z]+)? *);
  (K_DoublePipe, (Cat (Chr 124) (Chr 124)), false) (* generated.rs:169  || *);
  (K_DoubleAnd, (Cat (Chr 38) (Chr 38)), false) (* generated.rs:171  && *);
  (K_Equals, (Chr 61), false) (* generated.rs:173  = *);
  (K_ExclamationMarkEquals, (Cat (Chr 33) (Chr 61)), false) (* generated.rs:175  != *);
  (K_Less, (Chr 60), false) (* generated.rs:177  < *);
  (K_More, (Chr 62), false) (* generated.rs:179  > *);
  (K_LessEquals, (Cat (Chr 60) (Chr 61)), false) (* generated.rs:181  <= *);
  (K_MoreEquals, (Cat (Chr 62) (Chr 61)), false) (* generated.rs:183  >= *);
  (K_DoubleLess, (Cat (Chr 60) (Chr 60)), false) (* generated.rs:185  << *);
  (K_DoubleLessLParen, (Cat (Chr 60) (Cat (Chr 60) (Chr 40))), false) (* generated.rs:187  <<( *);
  (K_DoubleMore, (Cat (Chr 62) (Chr 62)), false) (* generated.rs:189  >> *);
  (K_RParenDoubleMore, (Cat (Chr 41) (Cat (Chr 62) (Chr 62))), false) (* generated.rs:191  )>> *);
  (K_IN, (Cat (Cls [(73, 73); (105, 105)]) (Cls [(78, 78); (110, 110)])), true) (* generated.rs:193  (?i-u:IN\b) *);
  (K_NOT, (Cat (Cls [(78, 78); (110, 110)]) (Cat (Cls [(79, 79); (111, 111)]) (Cls [(84, 84); (116, 116)]))), false) (* generated.rs:195  NOT *);
  (K_Minus, (Chr 45), false) (* generated.rs:197  - *);
  (K_STR, (Cat (Cls [(83, 83); (115, 115); (383, 383)]) (Cat (Cls [(84, 84); (116, 116)]) (Cls [(82, 82); (114, 114)]))), false) (* generated.rs:199  STR *);
  (K_LANG, (Cat (Cls [(76, 76); (108, 108)]) (Cat (Cls [(65, 65); (97, 97)]) (Cat (Cls [(78, 78); (110, 110)]) (Cls [(71, 71); (103, 103)])))), false) (* generated.rs:201  LANG *);
  (K_LANGMATCHES, (Cat (Cls [(76, 76); (108, 108)]) (Cat (Cls [(65, 65); (97, 97)]) (Cat (Cls [(78, 78); (110, 110)]) (Cat (Cls [(71, 71); (103, 103)]) (Cat (Cls [(77, 77); (109, 109)]) (Cat (Cls [(65, 65); (97, 97)]) (Cat (Cls [(84, 84); (116, 116)]) (Cat (Cls [(67, 67); (99, 99)]) (Cat (Cls [(72, 72); (104, 104)]) (Cat (Cls [(69, 69); (101, 101)]) (Cls [(83, 83); (115, 115); (383, 383)]))))))))))), false) (* generated.rs:203  LANGMATCHES *);
  (K_DATATYPE, (Cat (Cls [(68, 68); (100, 100)]) (Cat (Cls [(65, 65); (97, 97)]) (Cat (Cls [(84, 84); (116, 116)]) (Cat (Cls [(65, 65); (97, 97)]) (Cat (Cls [(84, 84); (116, 116)]) (Cat (Cls [(89, 89); (121, 121)]) (Cat (Cls [(80, 80); (112, 112)]) (Cls [(69, 69); (101, 101)])))))))), false) (* generated.rs:205  DATATYPE *);
  (K_BOUND, (Cat (Cls [(66, 66); (98, 98)]) (Cat (Cls [(79, 79); (111, 111)]) (Cat (Cls [(85, 85); (117, 117)]) (Cat (Cls [(78, 78); (110, 110)]) (Cls [(68, 68); (100, 100)]))))), false) (* generated.rs:207  BOUND *);
  (K_IRI, (Cat (Cls [(73, 73); (105, 105)]) (Cat (Cls [(82, 82); (114, 114)]) (Cls [(73, 73); (105, 105)]))), false) (* generated.rs:209  IRI *);
  (K_URI, (Cat (Cls [(85, 85); (117, 117)]) (Cat (Cls [(82, 82); (114, 114)]) (Cls [(73, 73); (105, 105)]))), false) (* generated.rs:211  URI *);
  (K_BNODE, (Cat (Cls [(66, 66); (98, 98)]) (Cat (Cls [(78, 78); (110, 110)]) (Cat (Cls [(79, 79); (111, 111)]) (Cat (Cls [(68, 68); (100, 100)]) (Cls [(69, 69); (101, 101)]))))), false) (* generated.rs:213  BNODE *);
  (K_RAND, (Cat (Cls [(82, 82); (114, 114)]) (Cat (Cls [(65, 65); (97, 97)]) (Cat (Cls [(78, 78); (110, 110)]) (Cls [(68, 68); (100, 100)])))), false) (* generated.rs:215  RAND *);
  (K_ABS, (Cat (Cls [(65, 65); (97, 97)]) (Cat (Cls [(66, 66); (98, 98)]) (Cls [(83, 83); (115, 115); (383, 383)]))), false) (* generated.rs:217  ABS *);
  (K_CEIL, (Cat (Cls [(67, 67); (99, 99)]) (Cat (Cls [(69, 69); (101, 101)]) (Cat (Cls [(73, 73); (105, 105)]) (Cls [(76, 76); (108, 108)])))), false) (* generated.rs:219  CEIL *);
  (K_FLOOR, (Cat (Cls [(70, 70); (102, 102)]) (Cat (Cls [(76, 76); (108, 108)]) (Cat (Cls [(79, 79); (111, 111)]) (Cat (Cls [(79, 79); (111, 111)]) (Cls [(82, 82); (114, 114)]))))), false) (* generated.rs:221  FLOOR *);
  (K_ROUND, (Cat (Cls [(82, 82); (114, 114)]) (Cat (Cls [(79, 79); (111, 111)]) (Cat (Cls [(85, 85); (117, 117)]) (Cat (Cls [(78, 78); (110, 110)]) (Cls [(68, 68); (100, 100)]))))), false) (* generated.rs:223  ROUND *);
  (K_CONCAT, (Cat (Cls [(67, 67); (99, 99)]) (Cat (Cls [(79, 79); (111, 111)]) (Cat (Cls [(78, 78); (110, 110)]) (Cat (Cls [(67, 67); (99, 99)]) (Cat (Cls [(65, 65); (97, 97)]) (Cls [(84, 84); (116, 116)])))))), false) (* generated.rs:225  CONCAT *);
  (K_STRLEN, (Cat (Cls [(83, 83); (115, 115); (383, 383)]) (Cat (Cls [(84, 84); (116, 116)]) (Cat (Cls [(82, 82); (114, 114)]) (Cat (Cls [(76, 76); (108, 108)]) (Cat (Cls [(69, 69); (101, 101)]) (Cls [(78, 78); (110, 110)])))))), false) (* generated.rs:227  STRLEN *);
  (K_UCASE, (Cat (Cls [(85, 85); (117, 117)]) (Cat (Cls [(67, 67); (99, 99)]) (Cat (Cls [(65, 65); (97, 97)]) (Cat (Cls [(83, 83); (115, 115); (383, 383)]) (Cls [(69, 69); (101, 101)]))))), false) (* generated.rs:229  UCASE *);
  (K_LCASE, (Cat (Cls [(76, 76); (108, 108)]) (Cat (Cls [(67, 67); (99, 99)]) (Cat (Cls [(65, 65); (97, 97)]) (Cat (Cls [(83, 83); (115, 115); (383, 383)]) (Cls [(69, 69); (101, 101)]))))), false) (* generated.rs:231  LCASE *);
  (K_ENCODE_FOR_URI, (Cat (Cls [(69, 69); (101, 101)]) (Cat (Cls [(78, 78); (110, 110)]) (Cat (Cls [(67, 67); (99, 99)]) (Cat (Cls [(79, 79); (111, 111)]) (Cat (Cls [(68, 68); (100, 100)]) (Cat (Cls [(69, 69); (101, 101)]) (Cat (Chr 95) (Cat (Cls [(70, 70); (102, 102)]) (Cat (Cls [(79, 79); (111, 111)]) (Cat (Cls [(82, 82); (114, 114)]) (Cat (Chr 95) (Cat (Cls [(85, 85); (117, 117)]) (Cat (Cls [(82, 82); (114, 114)]) (Cls [(73, 73); (105, 105)])))))))))))))), false) (* generated.rs:233  ENCODE_FOR_URI *);
  (K_CONTAINS, (Cat (Cls [(67, 67); (99, 99)]) (Cat (Cls [(79, 79); (111, 111)]) (Cat (Cls [(78, 78); (110, 110)]) (Cat (Cls [(84, 84); (116, 116)]) (Cat (Cls [(65, 65); (97, 97)]) (Cat (Cls [(73, 73); (105, 105)]) (Cat (Cls [(78, 78); (110, 110)]) (Cls [(83, 83); (115, 115); (383, 383)])))))))), false) (* generated.rs:235  CONTAINS *);
  (K_STRSTARTS, (Cat (Cls [(83, 83); (115, 115); (383, 383)]) (Cat (Cls [(84, 84); (116, 116)]) (Cat (Cls [(82, 82); (114, 114)]) (Cat (Cls [(83, 83); (115, 115); (383, 383)]) (Cat (Cls [(84, 84); (116, 116)]) (Cat (Cls [(65, 65); (97, 97)]) (Cat (Cls [(82, 82); (114, 114)]) (Cat (Cls [(84, 84); (116, 116)]) (Cls [(83, 83); (115, 115); (383, 383)]))))))))), false) (* generated.rs:237  STRSTARTS *);
  (K_STRENDS, (Cat (Cls [(83, 83); (115, 115); (383, 383)]) (Cat (Cls [(84, 84); (116, 116)]) (Cat (Cls [(82, 82); (114, 114)]) (Cat (Cls [(69, 69); (101, 101)]) (Cat (Cls [(78, 78); (110, 110)]) (Cat (Cls [(68, 68); (100, 100)]) (Cls [(83, 83); (115, 115); (383, 383)]))))))), false) (* generated.rs:239  STRENDS *);
  (K_STRBEFORE, (Cat (Cls [(83, 83); (115, 115); (383, 383)]) (Cat (Cls [(84, 84); (116, 116)]) (Cat (Cls [(82, 82); (114, 114)]) (Cat (Cls [(66, 66); (98, 98)]) (Cat (Cls [(69, 69); (101, 101)]) (Cat (Cls [(70, 70); (102, 102)]) (Cat (Cls [(79, 79); (111, 111)]) (Cat (Cls [(82, 82); (114, 114)]) (Cls [(69, 69); (101, 101)]))))))))), false) (* generated.rs:241  STRBEFORE *);
  (K_STRAFTER, (Cat (Cls [(83, 83); (115, 115); (383, 383)]) (Cat (Cls [(84, 84); (116, 116)]) (Cat (Cls [(82, 82); (114, 114)]) (Cat (Cls [(65, 65); (97, 97)]) (Cat (Cls [(70, 70); (102, 102)]) (Cat (Cls [(84, 84); (116, 116)]) (Cat (Cls [(69, 69); (101, 101)]) (Cls [(82, 82); (114, 114)])))))))), false) (* generated.rs:243  STRAFTER *);
  (K_YEAR, (Cat (Cls [(89, 89); (121, 121)]) (Cat (Cls [(69, 69); (101, 101)]) (Cat (Cls [(65, 65); (97, 97)]) (Cls [(82, 82); (114, 114)])))), false) (* generated.rs:245  YEAR *);
  (K_MONTH, (Cat (Cls [(77, 77); (109, 109)]) (Cat (Cls [(79, 79); (111, 111)]) (Cat (Cls [(78, 78); (110, 110)]) (Cat (Cls [(84, 84); (116, 116)]) (Cls [(72, 72); (104, 104)]))))), false) (* generated.rs:247  MONTH *);
  (K_DAY, (Cat (Cls [(68, 68); (100, 100)]) (Cat (Cls [(65, 65); (97, 97)]) (Cls [(89, 89); (121, 121)]))), false) (* generated.rs:249  DAY *);
  (K_HOURS, (Cat (Cls [(72, 72); (104, 104)]) (Cat (Cls [(79, 79); (111, 111)]) (Cat (Cls [(85, 85); (117, 117)]) (Cat (Cls [(82, 82); (114, 114)]) (Cls [(83, 83); (115, 115); (383, 383)]))))), false) (* generated.rs:251  HOURS *);
  (K_MINUTES, (Cat (Cls [(77, 77); (109, 109)]) (Cat (Cls [(73, 73); (105, 105)]) (Cat (Cls [(78, 78); (110, 110)]) (Cat (Cls [(85, 85); (117, 117)]) (Cat (Cls [(84, 84); (116, 116)]) (Cat (Cls [(69, 69); (101, 101)]) (Cls [(83, 83); (115, 115); (383, 383)]))))))), false) (* generated.rs:253  MINUTES *);
  (K_SECONDS, (Cat (Cls [(83, 83); (115, 115); (383, 383)]) (Cat (Cls [(69, 69); (101, 101)]) (Cat (Cls [(67, 67); (99, 99)]) (Cat (Cls [(79, 79); (111, 111)]) (Cat (Cls [(78, 78); (110, 110)]) (Cat (Cls [(68, 68); (100, 100)]) (Cls [(83, 83); (115, 115); (383, 383)]))))))), false) (* generated.rs:255  SECONDS *);
  (K_TIMEZONE, (Cat (Cls [(84, 84); (116, 116)]) (Cat (Cls [(73, 73); (105, 105)]) (Cat (Cls [(77, 77); (109, 109)]) (Cat (Cls [(69, 69); (101, 101)]) (Cat (Cls [(90, 90); (122, 122)]) (Cat (Cls [(79, 79); (111, 111)]) (Cat (Cls [(78, 78); (110, 110)]) (Cls [(69, 69); (101, 101)])))))))), false) (* generated.rs:257  TIMEZONE *);
  (K_TZ, (Cat (Cls [(84, 84); (116, 116)]) (Cls [(90, 90); (122, 122)])), false) (* generated.rs:259  TZ *);
  (K_NOW, (Cat (Cls [(78, 78); (110, 110)]) (Cat (Cls [(79, 79); (111, 111)]) (Cls [(87, 87); (119, 119)]))), false) (* generated.rs:261  NOW *);
  (K_UUID, (Cat (Cls [(85, 85); (117, 117)]) (Cat (Cls [(85, 85); (117, 117)]) (Cat (Cls [(73, 73); (105, 105)]) (Cls [(68, 68); (100, 100)])))), false) (* generated.rs:263  UUID *);
  (K_STRUUID, (Cat (Cls [(83, 83); (115, 115); (383, 383)]) (Cat (Cls [(84, 84); (116, 116)]) (Cat (Cls [(82, 82); (114, 114)]) (Cat (Cls [(85, 85); (117, 117)]) (Cat (Cls [(85, 85); (117, 117)]) (Cat (Cls [(73, 73); (105, 105)]) (Cls [(68, 68); (100, 100)]))))))), false) (* generated.rs:265  STRUUID *);
  (K_MD5, (Cat (Cls [(77, 77); (109, 109)]) (Cat (Cls [(68, 68); (100, 100)]) (Chr 53))), false) (* generated.rs:267  MD5 *);
  (K_SHA1, (Cat (Cls [(83, 83); (115, 115); (383, 383)]) (Cat (Cls [(72, 72); (104, 104)]) (Cat (Cls [(65, 65); (97, 97)]) (Chr 49)))), false) (* generated.rs:269  SHA1 *);
  (K_SHA256, (Cat (Cls [(83, 83); (115, 115); (383, 383)]) (Cat (Cls [(72, 72); (104, 104)]) (Cat (Cls [(65, 65); (97, 97)]) (Cat (Chr 50) (Cat (Chr 53) (Chr 54)))))), false) (* generated.rs:271  SHA256 *);
  (K_SHA384, (Cat (Cls [(83, 83); (115, 115); (383, 383)]) (Cat (Cls [(72, 72); (104, 104)]) (Cat (Cls [(65, 65); (97, 97)]) (Cat (Chr 51) (Cat (Chr 56) (Chr 52)))))), false) (* generated.rs:273  SHA384 *);
  (K_SHA512, (Cat (Cls [(83, 83); (115, 115); (383, 383)]) (Cat (Cls [(72, 72); (104, 104)]) (Cat (Cls [(65, 65); (97, 97)]) (Cat (Chr 53) (Cat (Chr 49) (Chr 50)))))), false) (* generated.rs:275  SHA512 *);
  (K_COALESCE, (Cat (Cls [(67, 67); (99, 99)]) (Cat (Cls [(79, 79); (111, 111)]) (Cat (Cls [(65, 65); (97, 97)]) (Cat (Cls [(76, 76); (108, 108)]) (Cat (Cls [(69, 69); (101, 101)]) (Cat (Cls [(83, 83); (115, 115); (383, 383)]) (Cat (Cls [(67, 67); (99, 99)]) (Cls [(69, 69); (101, 101)])))))))), false) (* generated.rs:277  COALESCE *);
  (K_IF, (Cat (Cls [(73, 73); (105, 105)]) (Cls [(70, 70); (102, 102)])), false) (* generated.rs:279  IF *);
  (K_STRLANG, (Cat (Cls [(83, 83); (115, 115); (383, 383)]) (Cat (Cls [(84, 84); (116, 116)]) (Cat (Cls [(82, 82); (114, 114)]) (Cat (Cls [(76, 76); (108, 108)]) (Cat (Cls [(65, 65); (97, 97)]) (Cat (Cls [(78, 78); (110, 110)]) (Cls [(71, 71); (103, 103)]))))))), false) (* generated.rs:281  STRLANG *);
  (K_STRDT, (Cat (Cls [(83, 83); (115, 115); (383, 383)]) (Cat (Cls [(84, 84); (116, 116)]) (Cat (Cls [(82, 82); (114, 114)]) (Cat (Cls [(68, 68); (100, 100)]) (Cls [(84, 84); (116, 116)]))))), false) (* generated.rs:283  STRDT *);
  (K_sameTerm, (Cat (Cls [(83, 83); (115, 115); (383, 383)]) (Cat (Cls [(65, 65); (97, 97)]) (Cat (Cls [(77, 77); (109, 109)]) (Cat (Cls [(69, 69); (101, 101)]) (Cat (Cls [(84, 84); (116, 116)]) (Cat (Cls [(69, 69); (101, 101)]) (Cat (Cls [(82, 82); (114, 114)]) (Cls [(77, 77); (109, 109)])))))))), false) (* generated.rs:285  sameTerm *);
  (K_isIRI, (Cat (Cls [(73, 73); (105, 105)]) (Cat (Cls [(83, 83); (115, 115); (383, 383)]) (Cat (Cls [(73, 73); (105, 105)]) (Cat (Cls [(82, 82); (114, 114)]) (Cls [(73, 73); (105, 105)]))))), false) (* generated.rs:287  isIRI *);
  (K_isURI, (Cat (Cls [(73, 73); (105, 105)]) (Cat (Cls [(83, 83); (115, 115); (383, 383)]) (Cat (Cls [(85, 85); (117, 117)]) (Cat (Cls [(82, 82); (114, 114)]) (Cls [(73, 73); (105, 105)]))))), false) (* generated.rs:289  isURI *);
  (K_isBLANK, (Cat (Cls [(73, 73); (105, 105)]) (Cat (Cls [(83, 83); (115, 115); (383, 383)]) (Cat (Cls [(66, 66); (98, 98)]) (Cat (Cls [(76, 76); (108, 108)]) (Cat (Cls [(65, 65); (97, 97)]) (Cat (Cls [(78, 78); (110, 110)]) (Cls [(75, 75); (107, 107); (8490, 8490)]))))))), false) (* generated.rs:291  isBLANK *);
  (K_isLITERAL, (Cat (Cls [(73, 73); (105, 105)]) (Cat (Cls [(83, 83); (115, 115); (383, 383)]) (Cat (Cls [(76, 76); (108, 108)]) (Cat (Cls [(73, 73); (105, 105)]) (Cat (Cls [(84, 84); (116, 116)]) (Cat (Cls [(69, 69); (101, 101)]) (Cat (Cls [(82, 82); (114, 114)]) (Cat (Cls [(65, 65); (97, 97)]) (Cls [(76, 76); (108, 108)]))))))))), false) (* generated.rs:293  isLITERAL *);
  (K_isNUMERIC, (Cat (Cls [(73, 73); (105, 105)]) (Cat (Cls [(83, 83); (115, 115); (383, 383)]) (Cat (Cls [(78, 78); (110, 110)]) (Cat (Cls [(85, 85); (117, 117)]) (Cat (Cls [(77, 77); (109, 109)]) (Cat (Cls [(69, 69); (101, 101)]) (Cat (Cls [(82, 82); (114, 114)]) (Cat (Cls [(73, 73); (105, 105)]) (Cls [(67, 67); (99, 99)]))))))))), false) (* generated.rs:295  isNUMERIC *);
  (K_REGEX, (Cat (Cls [(82, 82); (114, 114)]) (Cat (Cls [(69, 69); (101, 101)]) (Cat (Cls [(71, 71); (103, 103)]) (Cat (Cls [(69, 69); (101, 101)]) (Cls [(88, 88); (120, 120)]))))), false) (* generated.rs:297  REGEX *);
  (K_SUBSTR, (Cat (Cls [(83, 83); (115, 115); (383, 383)]) (Cat (Cls [(85, 85); (117, 117)]) (Cat (Cls [(66, 66); (98, 98)]) (Cat (Cls [(83, 83); (115, 115); (383, 383)]) (Cat (Cls [(84, 84); (116, 116)]) (Cls [(82, 82); (114, 114)])))))), false) (* generated.rs:299  SUBSTR *);
  (K_REPLACE, (Cat (Cls [(82, 82); (114, 114)]) (Cat (Cls [(69, 69); (101, 101)]) (Cat (Cls [(80, 80); (112, 112)]) (Cat (Cls [(76, 76); (108, 108)]) (Cat (Cls [(65, 65); (97, 97)]) (Cat (Cls [(67, 67); (99, 99)]) (Cls [(69, 69); (101, 101)]))))))), false) (* generated.rs:301  REPLACE *);
  (K_EXISTS, (Cat (Cls [(69, 69); (101, 101)]) (Cat (Cls [(88, 88); (120, 120)]) (Cat (Cls [(73, 73); (105, 105)]) (Cat (Cls [(83, 83); (115, 115); (383, 383)]) (Cat (Cls [(84, 84); (116, 116)]) (Cls [(83, 83); (115, 115); (383, 383)])))))), false) (* generated.rs:303  EXISTS *);
  (K_COUNT, (Cat (Cls [(67, 67); (99, 99)]) (Cat (Cls [(79, 79); (111, 111)]) (Cat (Cls [(85, 85); (117, 117)]) (Cat (Cls [(78, 78); (110, 110)]) (Cls [(84, 84); (116, 116)]))))), false) (* generated.rs:305  COUNT *);
  (K_SUM, (Cat (Cls [(83, 83); (115, 115); (383, 383)]) (Cat (Cls [(85, 85); (117, 117)]) (Cls [(77, 77); (109, 109)]))), false) (* generated.rs:307  SUM *);
  (K_MIN, (Cat (Cls [(77, 77); (109, 109)]) (Cat (Cls [(73, 73); (105, 105)]) (Cls [(78, 78); (110, 110)]))), false) (* generated.rs:309  MIN *);
  (K_MAX, (Cat (Cls [(77, 77); (109, 109)]) (Cat (Cls [(65, 65); (97, 97)]) (Cls [(88, 88); (120, 120)]))), false) (* generated.rs:311  MAX *);
  (K_AVG, (Cat (Cls [(65, 65); (97, 97)]) (Cat (Cls [(86, 86); (118, 118)]) (Cls [(71, 71); (103, 103)]))), false) (* generated.rs:313  AVG *);
  (K_SAMPLE, (Cat (Cls [(83, 83); (115, 115); (383, 383)]) (Cat (Cls [(65, 65); (97, 97)]) (Cat (Cls [(77, 77); (109, 109)]) (Cat (Cls [(80, 80); (112, 112)]) (Cat (Cls [(76, 76); (108, 108)]) (Cls [(69, 69); (101, 101)])))))), false) (* generated.rs:315  SAMPLE *);
  (K_GROUP_CONCAT, (Cat (Cls [(71, 71); (103, 103)]) (Cat (Cls [(82, 82); (114, 114)]) (Cat (Cls [(79, 79); (111, 111)]) (Cat (Cls [(85, 85); (117, 117)]) (Cat (Cls [(80, 80); (112, 112)]) (Cat (Chr 95) (Cat (Cls [(67, 67); (99, 99)]) (Cat (Cls [(79, 79); (111, 111)]) (Cat (Cls [(78, 78); (110, 110)]) (Cat (Cls [(67, 67); (99, 99)]) (Cat (Cls [(65, 65); (97, 97)]) (Cls [(84, 84); (116, 116)])))))))))))), false) (* generated.rs:317  GROUP_CONCAT *);
  (K_SEPARATOR, (Cat (Cls [(83, 83); (115, 115); (383, 383)]) (Cat (Cls [(69, 69); (101, 101)]) (Cat (Cls [(80, 80); (112, 112)]) (Cat (Cls [(65, 65); (97, 97)]) (Cat (Cls [(82, 82); (114, 114)]) (Cat (Cls [(65, 65); (97, 97)]) (Cat (Cls [(84, 84); (116, 116)]) (Cat (Cls [(79, 79); (111, 111)]) (Cls [(82, 82); (114, 114)]))))))))), false) (* generated.rs:319  SEPARATOR *);
  (K_VERSION, (Cat (Cls [(86, 86); (118, 118)]) (Cat (Cls [(69, 69); (101, 101)]) (Cat (Cls [(82, 82); (114, 114)]) (Cat (Cls [(83, 83); (115, 115); (383, 383)]) (Cat (Cls [(73, 73); (105, 105)]) (Cat (Cls [(79, 79); (111, 111)]) (Cls [(78, 78); (110, 110)]))))))), false) (* generated.rs:321  VERSION *);
  (K_STRLANGDIR, (Cat (Cls [(83, 83); (115, 115); (383, 383)]) (Cat (Cls [(84, 84); (116, 116)]) (Cat (Cls [(82, 82); (114, 114)]) (Cat (Cls [(76, 76); (108, 108)]) (Cat (Cls [(65, 65); (97, 97)]) (Cat (Cls [(78, 78); (110, 110)]) (Cat (Cls [(71, 71); (103, 103)]) (Cat (Cls [(68, 68); (100, 100)]) (Cat (Cls [(73, 73); (105, 105)]) (Cls [(82, 82); (114, 114)])))))))))), false) (* generated.rs:323  STRLANGDIR *);
  (K_hasLANG, (Cat (Cls [(72, 72); (104, 104)]) (Cat (Cls [(65, 65); (97, 97)]) (Cat (Cls [(83, 83); (115, 115); (383, 383)]) (Cat (Cls [(76, 76); (108, 108)]) (Cat (Cls [(65, 65); (97, 97)]) (Cat (Cls [(78, 78); (110, 110)]) (Cls [(71, 71); (103, 103)]))))))), false) (* generated.rs:325  hasLANG *);
  (K_hasLANGDIR, (Cat (Cls [(72, 72); (104, 104)]) (Cat (Cls [(65, 65); (97, 97)]) (Cat (Cls [(83, 83); (115, 115); (383, 383)]) (Cat (Cls [(76, 76); (108, 108)]) (Cat (Cls [(65, 65); (97, 97)]) (Cat (Cls [(78, 78); (110, 110)]) (Cat (Cls [(71, 71); (103, 103)]) (Cat (Cls [(68, 68); (100, 100)]) (Cat (Cls [(73, 73); (105, 105)]) (Cls [(82, 82); (114, 114)])))))))))), false) (* generated.rs:327  hasLANGDIR *);
  (K_isTRIPLE, (Cat (Cls [(73, 73); (105, 105)]) (Cat (Cls [(83, 83); (115, 115); (383, 383)]) (Cat (Cls [(84, 84); (116, 116)]) (Cat (Cls [(82, 82); (114, 114)]) (Cat (Cls [(73, 73); (105, 105)]) (Cat (Cls [(80, 80); (112, 112)]) (Cat (Cls [(76, 76); (108, 108)]) (Cls [(69, 69); (101, 101)])))))))), false) (* generated.rs:329  isTRIPLE *);
  (K_TRIPLE, (Cat (Cls [(84, 84); (116, 116)]) (Cat (Cls [(82, 82); (114, 114)]) (Cat (Cls [(73, 73); (105, 105)]) (Cat (Cls [(80, 80); (112, 112)]) (Cat (Cls [(76, 76); (108, 108)]) (Cls [(69, 69); (101, 101)])))))), false) (* generated.rs:331  TRIPLE *);
  (K_SUBJECT, (Cat (Cls [(83, 83); (115, 115); (383, 383)]) (Cat (Cls [(85, 85); (117, 117)]) (Cat (Cls [(66, 66); (98, 98)]) (Cat (Cls [(74, 74); (106, 106)]) (Cat (Cls [(69, 69); (101, 101)]) (Cat (Cls [(67, 67); (99, 99)]) (Cls [(84, 84); (116, 116)]))))))), false) (* generated.rs:333  SUBJECT *);
  (K_PREDICATE, (Cat (Cls [(80, 80); (112, 112)]) (Cat (Cls [(82, 82); (114, 114)]) (Cat (Cls [(69, 69); (101, 101)]) (Cat (Cls [(68, 68); (100, 100)]) (Cat (Cls [(73, 73); (105, 105)]) (Cat (Cls [(67, 67); (99, 99)]) (Cat (Cls [(65, 65); (97, 97)]) (Cat (Cls [(84, 84); (116, 116)]) (Cls [(69, 69); (101, 101)]))))))))), false) (* generated.rs:335  PREDICATE *);
  (K_OBJECT, (Cat (Cls [(79, 79); (111, 111)]) (Cat (Cls [(66, 66); (98, 98)]) (Cat (Cls [(74, 74); (106, 106)]) (Cat (Cls [(69, 69); (101, 101)]) (Cat (Cls [(67, 67); (99, 99)]) (Cls [(84, 84); (116, 116)])))))), false) (* generated.rs:337  OBJECT *);
  (K_LANGDIR, (Cat (Cls [(76, 76); (108, 108)]) (Cat (Cls [(65, 65); (97, 97)]) (Cat (Cls [(78, 78); (110, 110)]) (Cat (Cls [(71, 71); (103, 103)]) (Cat (Cls [(68, 68); (100, 100)]) (Cat (Cls [(73, 73); (105, 105)]) (Cls [(82, 82); (114, 114)]))))))), false) (* generated.rs:339  LANGDIR *);
  (K_DoubleZirkumflex, (Cat (Chr 94) (Chr 94)), false) (* generated.rs:341  ^^ *);
  (K_INTEGER, (Cat (Cls class_7) (Star (Cls class_7))), false) (* generated.rs:343  \d+ *);
  (K_DECIMAL, (Cat (Star (Cls class_7)) (Cat (Chr 46) (Cat (Cls class_7) (Star (Cls class_7))))), false) (* generated.rs:345  \d*\.\d+ *);
  (K_DOUBLE, (Alt (Cat (Cls class_7) (Cat (Star (Cls class_7)) (Cat (Chr 46) (Cat (Star (Cls class_7)) (Cat (Cls [(69, 69); (101, 101)]) (Cat (Alt Eps (Cls [(43, 43); (45, 45)])) (Cat (Cls class_7) (Star (Cls class_7))))))))) (Alt (Cat (Chr 46) (Cat (Cls class_7) (Cat (Star (Cls class_7)) (Cat (Cls [(69, 69); (101, 101)]) (Cat (Alt Eps (Cls [(43, 43); (45, 45)])) (Cat (Cls class_7) (Star (Cls class_7)))))))) (Cat (Cls class_7) (Cat (Star (Cls class_7)) (Cat (Cls [(69, 69); (101, 101)]) (Cat (Alt Eps (Cls [(43, 43); (45, 45)])) (Cat (Cls class_7) (Star (Cls class_7))))))))), false) (* generated.rs:347  (?:\d+\.\d*(?:[eE][+-]?\d+))|(?:\.\d+([eE][+-]?\d+))|(?:\... *);
  (K_INTEGER_POSITIVE, (Cat (Chr 43) (Cat (Cls class_7) (Star (Cls class_7)))), false) (* generated.rs:349  \+\d+ *);
  (K_DECIMAL_POSITIVE, (Cat (Chr 43) (Cat (Star (Cls class_7)) (Cat (Chr 46) (Cat (Cls class_7) (Star (Cls class_7)))))), false) (* generated.rs:351  \+\d*\.\d+ *);
  (K_DOUBLE_POSITIVE, (Alt (Cat (Chr 43) (Cat (Cls class_7) (Cat (Star (Cls class_7)) (Cat (Chr 46) (Cat (Star (Cls class_7)) (Cat (Cls [(69, 69); (101, 101)]) (Cat (Alt Eps (Cls [(43, 43); (45, 45)])) (Cat (Cls class_7) (Star (Cls class_7)))))))))) (Alt (Cat (Chr 43) (Cat (Chr 46) (Cat (Cls class_7) (Cat (Star (Cls class_7)) (Cat (Cls [(69, 69); (101, 101)]) (Cat (Alt Eps (Cls [(43, 43); (45, 45)])) (Cat (Cls class_7) (Star (Cls class_7))))))))) (Cat (Chr 43) (Cat (Cls class_7) (Cat (Star (Cls class_7)) (Cat (Cls [(69, 69); (101, 101)]) (Cat (Alt Eps (Cls [(43, 43); (45, 45)])) (Cat (Cls class_7) (Star (Cls class_7)))))))))), false) (* generated.rs:353  \+(?:\d+\.\d*(?:[eE][+-]?\d+))|\+(?:\.\d+([eE][+-]?\d+))|... *);
  (K_INTEGER_NEGATIVE, (Cat (Chr 45) (Cat (Cls class_7) (Star (Cls class_7)))), false) (* generated.rs:355  -\d+ *);
  (K_DECIMAL_NEGATIVE, (Cat (Chr 45) (Cat (Star (Cls class_7)) (Cat (Chr 46) (Cat (Cls class_7) (Star (Cls class_7)))))), false) (* generated.rs:357  -\d*\.\d+ *);
  (K_DOUBLE_NEGATIVE, (Alt (Cat (Chr 45) (Cat (Cls class_7) (Cat (Star (Cls class_7)) (Cat (Chr 46) (Cat (Star (Cls class_7)) (Cat (Cls [(69, 69); (101, 101)]) (Cat (Alt Eps (Cls [(43, 43); (45, 45)])) (Cat (Cls class_7) (Star (Cls class_7)))))))))) (Alt (Cat (Chr 45) (Cat (Chr 46) (Cat (Cls class_7) (Cat (Star (Cls class_7)) (Cat (Cls [(69, 69); (101, 101)]) (Cat (Alt Eps (Cls [(43, 43); (45, 45)])) (Cat (Cls class_7) (Star (Cls class_7))))))))) (Cat (Chr 45) (Cat (Cls class_7) (Cat (Star (Cls class_7)) (Cat (Cls [(69, 69); (101, 101)]) (Cat (Alt Eps (Cls [(43, 43); (45, 45)])) (Cat (Cls class_7) (Star (Cls class_7)))))))))), false) (* generated.rs:359  -(?:\d+\.\d*(?:[eE][+-]?\d+))|-(?:\.\d+([eE][+-]?\d+))|-(... *);
  (K_True, (Cat (Chr 116) (Cat (Chr 114) (Cat (Chr 117) (Chr 101)))), false) (* generated.rs:361  true *);
  (K_False, (Cat (Chr 102) (Cat (Chr 97) (Cat (Chr 108) (Cat (Chr 115) (Chr 101))))), false) (* generated.rs:363  false *);
  (K_STRING_LITERAL1, (Cat (Chr 39) (Cat (Star (Cls class_8)) (Chr 39))), false) (* generated.rs:365  '[^'\u{27}\u{5C}\u{A}\u{D}]*' *);
  (K_STRING_LITERAL2, (Cat (Chr 34) (Cat (Star (Alt (Cls [(32, 33); (35, 91); (93, 1114111)]) (Cat (Chr 92) (Alt (Cls class_9) (Cat (Chr 117) (Cat (Cls [(48, 57); (65, 70); (97, 102)]) (Cat (Cls [(48, 57); (65, 70); (97, 102)]) (Cat (Cls [(48, 57); (65, 70); (97, 102)]) (Cls [(48, 57); (65, 70); (97, 102)]))))))))) (Chr 34))), false) (* generated.rs:367  ''([^''\\\x00-\x1F]|\\([''\\bnfrt/]|u[a-fA-F0-9]{4}))*'' *);
  (K_STRING_LITERAL_LONG1, (Cat (Chr 39) (Cat (Chr 39) (Cat (Chr 39) (Cat (Star (Cat (Alt Eps (Alt (Chr 39) (Cat (Chr 39) (Chr 39)))) (Cls [(0, 38); (40, 1114111)]))) (Cat (Chr 39) (Cat (Chr 39) (Chr 39))))))), false) (* generated.rs:371  '''(?:(?:'|'')?(?:[^'\\]|[\\\r\n\f\r\t]))*''' *);
  (K_STRING_LITERAL_LONG2, (Cat (Chr 34) (Cat (Chr 34) (Cat (Chr 34) (Cat (Star (Cat (Alt Eps (Alt (Chr 34) (Cat (Chr 34) (Chr 34)))) (Cls [(0, 33); (35, 1114111)]))) (Cat (Chr 34) (Cat (Chr 34) (Chr 34))))))), false) (* generated.rs:373  ''''''(?:(?:''|'''')?(?:[^''\\]|[\\\r\n\f\r\t]))*'''''' *);
  (K_PNAME_LN, (Cat (Alt Eps (Cat (Cls class_1) (Alt Eps (Cat (Star (Cls class_2)) (Cls class_3))))) (Cat (Chr 58) (Cat (Alt (Cls class_10) (Alt (Cat (Chr 37) (Cat (Alt (Cat (Alt Eps (Chr 58)) (Cls [(48, 57)])) (Cls [(65, 70); (97, 102)])) (Alt (Cat (Alt Eps (Chr 58)) (Cls [(48, 57)])) (Cls [(65, 70); (97, 102)])))) (Cat (Chr 92) (Cls class_11)))) (Alt Eps (Cat (Star (Alt (Cls class_12) (Alt (Cat (Chr 37) (Cat (Alt (Cat (Alt Eps (Chr 58)) (Cls [(48, 57)])) (Cls [(65, 70); (97, 102)])) (Alt (Cat (Alt Eps (Chr 58)) (Cls [(48, 57)])) (Cls [(65, 70); (97, 102)])))) (Cat (Chr 92) (Cls class_11))))) (Alt (Cls class_13) (Alt (Cat (Chr 37) (Cat (Alt (Cat (Alt Eps (Chr 58)) (Cls [(48, 57)])) (Cls [(65, 70); (97, 102)])) (Alt (Cat (Alt Eps (Chr 58)) (Cls [(48, 57)])) (Cls [(65, 70); (97, 102)])))) (Cat (Chr 92) (Cls class_11))))))))), false) (* generated.rs:375  (?:(?:(?:[A-Z]|[a-z]|[\u{00C0}-\u{00D6}]|[\u{00D8}-\u{00F... *);
  (K_BLANK_NODE_LABEL, (Cat (Chr 95) (Cat (Chr 58) (Cat (Cls class_5) (Alt Eps (Cat (Star (Cls class_2)) (Cls class_3)))))), false) (* generated.rs:378  _:(?:[A-Z]|[a-z]|[\u{00C0}-\u{00D6}]|[\u{00D8}-\u{00F6}]|... *);
  (K_ANON, (Cat (Chr 91) (Cat (Star (Cls class_4)) (Chr 93))), false) (* generated.rs:380  \[\s*\] *)
].
