(** The repository's own unit tests (src/test.rs, valid.rs, pretty.rs, util.rs,
    path.rs and the examples of README.md), run on the model by computation.
    They are evidence that the model behaves as the code does; they prove nothing
    else.  Tests that read testfiles/*.json are left out. *)
From Coq Require Import String.
From Verif Require Import M_Base M_Util M_Num M_Scan M_Value M_Path M_Valid M_Pretty M_Get.
Open Scope string_scope.

Definition get_json (json path : string) : R bytes := v <- get (bs json) (bs path) ;; Ok (v_json v).
Definition get_str (json path : string) : R bytes := v <- get (bs json) (bs path) ;; v_str v.
Definition get_i32 (json path : string) : R Z := v <- get (bs json) (bs path) ;; v_i32 v.

(* valid.rs *)
Example t001 : valid (bs "0") = Ok true.
Proof. vm_compute. reflexivity. Qed.
Example t002 : valid (bs "00") = Ok false.
Proof. vm_compute. reflexivity. Qed.
Example t003 : valid (bs "-00") = Ok false.
Proof. vm_compute. reflexivity. Qed.
Example t004 : valid (bs "-.") = Ok false.
Proof. vm_compute. reflexivity. Qed.
Example t005 : valid (bs "-.123") = Ok false.
Proof. vm_compute. reflexivity. Qed.
Example t006 : valid (bs "0.0") = Ok true.
Proof. vm_compute. reflexivity. Qed.
Example t007 : valid (bs "10.0") = Ok true.
Proof. vm_compute. reflexivity. Qed.
Example t008 : valid (bs "10e1") = Ok true.
Proof. vm_compute. reflexivity. Qed.
Example t009 : valid (bs "10EE") = Ok false.
Proof. vm_compute. reflexivity. Qed.
Example t010 : valid (bs "10E-") = Ok false.
Proof. vm_compute. reflexivity. Qed.
Example t011 : valid (bs "10E+") = Ok false.
Proof. vm_compute. reflexivity. Qed.
Example t012 : valid (bs "10E123") = Ok true.
Proof. vm_compute. reflexivity. Qed.
Example t013 : valid (bs "10E-123") = Ok true.
Proof. vm_compute. reflexivity. Qed.
Example t014 : valid (bs "10E-0123") = Ok true.
Proof. vm_compute. reflexivity. Qed.
Example t015 : valid (bs "") = Ok false.
Proof. vm_compute. reflexivity. Qed.
Example t016 : valid (bs " ") = Ok false.
Proof. vm_compute. reflexivity. Qed.
Example t017 : valid (bs "{}") = Ok true.
Proof. vm_compute. reflexivity. Qed.
Example t018 : valid (bs "{") = Ok false.
Proof. vm_compute. reflexivity. Qed.
Example t019 : valid (bs "-") = Ok false.
Proof. vm_compute. reflexivity. Qed.
Example t020 : valid (bs "-1") = Ok true.
Proof. vm_compute. reflexivity. Qed.
Example t021 : valid (bs "-1.") = Ok false.
Proof. vm_compute. reflexivity. Qed.
Example t022 : valid (bs "-1.0") = Ok true.
Proof. vm_compute. reflexivity. Qed.
Example t023 : valid (bs " -1.0") = Ok true.
Proof. vm_compute. reflexivity. Qed.
Example t024 : valid (bs " -1.0 ") = Ok true.
Proof. vm_compute. reflexivity. Qed.
Example t025 : valid (bs "-1.0 ") = Ok true.
Proof. vm_compute. reflexivity. Qed.
Example t026 : valid (bs "-1.0 i") = Ok false.
Proof. vm_compute. reflexivity. Qed.
Example t027 : valid (bs "-1.0 i") = Ok false.
Proof. vm_compute. reflexivity. Qed.
Example t028 : valid (bs "true") = Ok true.
Proof. vm_compute. reflexivity. Qed.
Example t029 : valid (bs " true") = Ok true.
Proof. vm_compute. reflexivity. Qed.
Example t030 : valid (bs " true ") = Ok true.
Proof. vm_compute. reflexivity. Qed.
Example t031 : valid (bs " True ") = Ok false.
Proof. vm_compute. reflexivity. Qed.
Example t032 : valid (bs " tru") = Ok false.
Proof. vm_compute. reflexivity. Qed.
Example t033 : valid (bs "false") = Ok true.
Proof. vm_compute. reflexivity. Qed.
Example t034 : valid (bs " false") = Ok true.
Proof. vm_compute. reflexivity. Qed.
Example t035 : valid (bs " false ") = Ok true.
Proof. vm_compute. reflexivity. Qed.
Example t036 : valid (bs " False ") = Ok false.
Proof. vm_compute. reflexivity. Qed.
Example t037 : valid (bs " fals") = Ok false.
Proof. vm_compute. reflexivity. Qed.
Example t038 : valid (bs "null") = Ok true.
Proof. vm_compute. reflexivity. Qed.
Example t039 : valid (bs " null") = Ok true.
Proof. vm_compute. reflexivity. Qed.
Example t040 : valid (bs " null ") = Ok true.
Proof. vm_compute. reflexivity. Qed.
Example t041 : valid (bs " Null ") = Ok false.
Proof. vm_compute. reflexivity. Qed.
Example t042 : valid (bs " nul") = Ok false.
Proof. vm_compute. reflexivity. Qed.
Example t043 : valid (bs " []") = Ok true.
Proof. vm_compute. reflexivity. Qed.
Example t044 : valid (bs " [true]") = Ok true.
Proof. vm_compute. reflexivity. Qed.
Example t045 : valid (bs " [ true, null ]") = Ok true.
Proof. vm_compute. reflexivity. Qed.
Example t046 : valid (bs " [ true,]") = Ok false.
Proof. vm_compute. reflexivity. Qed.
Example t047 : valid (bs "{""hello"":""world""}") = Ok true.
Proof. vm_compute. reflexivity. Qed.
Example t048 : valid (bs "{ ""hello"": ""world"" }") = Ok true.
Proof. vm_compute. reflexivity. Qed.
Example t049 : valid (bs "{ ""hello"": ""world"", }") = Ok false.
Proof. vm_compute. reflexivity. Qed.
Example t050 : valid (bs "{""a"":""b"",}") = Ok false.
Proof. vm_compute. reflexivity. Qed.
Example t051 : valid (bs "{""a"":""b"",""a""}") = Ok false.
Proof. vm_compute. reflexivity. Qed.
Example t052 : valid (bs "{""a"":""b"",""a"":}") = Ok false.
Proof. vm_compute. reflexivity. Qed.
Example t053 : valid (bs "{""a"":""b"",""a"":1}") = Ok true.
Proof. vm_compute. reflexivity. Qed.
Example t054 : valid (bs "{""a"":""b"",2""1"":2}") = Ok false.
Proof. vm_compute. reflexivity. Qed.
Example t055 : valid (bs "{""a"":""b"",""a"": 1, ""c"":{""hi"":""there""} }") = Ok true.
Proof. vm_compute. reflexivity. Qed.
Example t056 : valid (bs "{""a"":""b"",""a"": 1, ""c"":{""hi"":""there"", ""easy"":[""going"",{""mixed"":""bag""}]} }") = Ok true.
Proof. vm_compute. reflexivity. Qed.
Example t057 : valid (bs """""") = Ok true.
Proof. vm_compute. reflexivity. Qed.
Example t058 : valid (bs """") = Ok false.
Proof. vm_compute. reflexivity. Qed.
Example t059 : valid (bs """\n""") = Ok true.
Proof. vm_compute. reflexivity. Qed.
Example t060 : valid (bs """\""") = Ok false.
Proof. vm_compute. reflexivity. Qed.
Example t061 : valid (bs """\\""") = Ok true.
Proof. vm_compute. reflexivity. Qed.
Example t062 : valid (bs """a\\b""") = Ok true.
Proof. vm_compute. reflexivity. Qed.
Example t063 : valid (bs """a\\b\\\""a""") = Ok true.
Proof. vm_compute. reflexivity. Qed.
Example t064 : valid (bs """a\\b\\\uFFAAa""") = Ok true.
Proof. vm_compute. reflexivity. Qed.
Example t065 : valid (bs """a\\b\\\uFFAZa""") = Ok false.
Proof. vm_compute. reflexivity. Qed.
Example t066 : valid (bs """a\\b\\\uFFA""") = Ok false.
Proof. vm_compute. reflexivity. Qed.
Example t067 : valid (bs """a\\b\\\uFFAZa""") = Ok false.
Proof. vm_compute. reflexivity. Qed.
Example t068 : valid (bs "") = Ok false.
Proof. vm_compute. reflexivity. Qed.
Example t069 : valid (bs "[-]") = Ok false.
Proof. vm_compute. reflexivity. Qed.
Example t070 : valid (bs "[-.123]") = Ok false.
Proof. vm_compute. reflexivity. Qed.
Example t071 : valid (bs "{""hel\lo"":""world""}") = Ok false.
Proof. vm_compute. reflexivity. Qed.
Example t072 : valid (bs "{""hello""  ") = Ok false.
Proof. vm_compute. reflexivity. Qed.
Example t073 : valid (bs "{""hello""  : true ") = Ok false.
Proof. vm_compute. reflexivity. Qed.
Example t074 : valid (bs "{""hello""  : true x") = Ok false.
Proof. vm_compute. reflexivity. Qed.
Example t075 : valid (bs "{""hello""  : true , ") = Ok false.
Proof. vm_compute. reflexivity. Qed.
Example t076 : valid (bs "[  ") = Ok false.
Proof. vm_compute. reflexivity. Qed.
Example t077 : valid (bs "[ true ") = Ok false.
Proof. vm_compute. reflexivity. Qed.
Example t078 : valid (bs "[ true x ") = Ok false.
Proof. vm_compute. reflexivity. Qed.
Example t079 : valid (bs "[ true , ") = Ok false.
Proof. vm_compute. reflexivity. Qed.
Example t080 : valid (bs "[ ""hel" ++ [0%N] ++ bs """ ]")%list = Ok false.
Proof. vm_compute. reflexivity. Qed.
Example t081 : valid (bs "[ ""hel\") = Ok false.
Proof. vm_compute. reflexivity. Qed.
Example t082 : valid (bs "[ ""hel\u") = Ok false.
Proof. vm_compute. reflexivity. Qed.
Example t083 : valid (bs "[ 123.x ]") = Ok false.
Proof. vm_compute. reflexivity. Qed.
Example t084 : valid (bs "[ 123.0e") = Ok false.
Proof. vm_compute. reflexivity. Qed.
Example t085 : valid (bs "[ 123.0e1f") = Ok false.
Proof. vm_compute. reflexivity. Qed.
(* pretty.rs *)
Definition EXAMPLE_PRETTY := "{
  ""name"": {
    ""last"": ""Sanders"",
    ""first"": ""Janet""
  },
  ""children"": [""Andy"", ""Carol"", ""Mike""],
  ""values"": [
    10.10,
    true,
    false,
    null,
    ""hello"",
    {
      ""a"": ""b"",
      ""c"": ""d""
    },
    []
  ],
  ""values2"": {},
  ""values3"": [],
  ""deep"": {
    ""deep"": {
      ""deep"": [1, 2, 3, 4, 5]
    }
  }
}
".
Definition EXAMPLE_UGLY := "{""name"":{""last"":""Sanders"",""first"":""Janet""},""children"":[""Andy"",""Carol"",""Mike""],""values"":[10.10,true,false,null,""hello"",{""a"":""b"",""c"":""d""},[]],""values2"":{},""values3"":[],""deep"":{""deep"":{""deep"":[1,2,3,4,5]}}}".
Example t086 : ugly (bs EXAMPLE_PRETTY) = Ok (bs EXAMPLE_UGLY).
Proof. vm_compute. reflexivity. Qed.
Example t087 : pretty (bs EXAMPLE_UGLY) = Ok (bs EXAMPLE_PRETTY).
Proof. vm_compute. reflexivity. Qed.
Example t088 : pretty_options (bs EXAMPLE_UGLY) (mkOpts 10 [9%N] (bs "   ") true) = Ok (bs "	{
	   ""children"": [
	      ""Andy"",
	      ""Carol"",
	      ""Mike""
	   ],
	   ""deep"": {
	      ""deep"": {
	         ""deep"": [
	            1,
	            2,
	            3,
	            4,
	            5
	         ]
	      }
	   },
	   ""name"": {
	      ""first"": ""Janet"",
	      ""last"": ""Sanders""
	   },
	   ""values"": [
	      10.10,
	      true,
	      false,
	      null,
	      ""hello"",
	      {
	         ""a"": ""b"",
	         ""c"": ""d""
	      },
	      []
	   ],
	   ""values2"": {},
	   ""values3"": []
	}
").
Proof. vm_compute. reflexivity. Qed.
Example t089 : (p <- pretty_options (bs "{""hello"":""JELLO"",""hello"":""HELLO""}") (mkOpts 80 [] (bs "  ") true) ;; ugly p) = Ok (bs "{""hello"":""JELLO"",""hello"":""HELLO""}").
Proof. vm_compute. reflexivity. Qed.
Example t090 : pretty (bs "{") = Ok (bs "{" ++ [10%N])%list.
Proof. vm_compute. reflexivity. Qed.
Example t091 : pretty (bs "r") = Ok [].
Proof. vm_compute. reflexivity. Qed.
(* util.rs *)
Example t092 : pmatch (bs "*") (bs "") = Ok true.
Proof. vm_compute. reflexivity. Qed.
Example t093 : pmatch (bs "") (bs "") = Ok true.
Proof. vm_compute. reflexivity. Qed.
Example t094 : pmatch (bs "") (bs "hello world") = Ok false.
Proof. vm_compute. reflexivity. Qed.
Example t095 : pmatch (bs "jello world") (bs "hello world") = Ok false.
Proof. vm_compute. reflexivity. Qed.
Example t096 : pmatch (bs "*") (bs "hello world") = Ok true.
Proof. vm_compute. reflexivity. Qed.
Example t097 : pmatch (bs "*world*") (bs "hello world") = Ok true.
Proof. vm_compute. reflexivity. Qed.
Example t098 : pmatch (bs "*world") (bs "hello world") = Ok true.
Proof. vm_compute. reflexivity. Qed.
Example t099 : pmatch (bs "hello*") (bs "hello world") = Ok true.
Proof. vm_compute. reflexivity. Qed.
Example t100 : pmatch (bs "jello*") (bs "hello world") = Ok false.
Proof. vm_compute. reflexivity. Qed.
Example t101 : pmatch (bs "hello?world") (bs "hello world") = Ok true.
Proof. vm_compute. reflexivity. Qed.
Example t102 : pmatch (bs "jello?world") (bs "hello world") = Ok false.
Proof. vm_compute. reflexivity. Qed.
Example t103 : pmatch (bs "he*o?world") (bs "hello world") = Ok true.
Proof. vm_compute. reflexivity. Qed.
Example t104 : pmatch (bs "he*o?wor*") (bs "hello world") = Ok true.
Proof. vm_compute. reflexivity. Qed.
Example t105 : pmatch (bs "he*o?*r*") (bs "hello world") = Ok true.
Proof. vm_compute. reflexivity. Qed.
Example t106 : pmatch (bs "h\*ello") (bs "h*ello") = Ok true.
Proof. vm_compute. reflexivity. Qed.
Example t107 : pmatch (bs "hello\") (bs "hello\") = Ok false.
Proof. vm_compute. reflexivity. Qed.
Example t108 : pmatch (bs "hello\?") (bs "hello?") = Ok true.
Proof. vm_compute. reflexivity. Qed.
Example t109 : pmatch (bs "hello\\") (bs "hello\") = Ok true.
Proof. vm_compute. reflexivity. Qed.
Example t110 : unescape (bs """\n第一印象:なんか怖っ！\n今の印象:とりあえずキモい。噛み合わない\n好きなところ:ぶすでキモいとこ😋✨✨\n思い出:んーーー、ありすぎ😊❤️\nLINE交換できる？:あぁ……ごめん✋\nトプ画をみて:照れますがな😘✨\n一言:お前は一生もんのダチ💖""") = Ok (bs "
第一印象:なんか怖っ！
今の印象:とりあえずキモい。噛み合わない
好きなところ:ぶすでキモいとこ😋✨✨
思い出:んーーー、ありすぎ😊❤️
LINE交換できる？:あぁ……ごめん✋
トプ画をみて:照れますがな😘✨
一言:お前は一生もんのダチ💖").
Proof. vm_compute. reflexivity. Qed.
Example t111 : unescape (bs """\n\u7B2C\u4E00\u5370\u8C61:\u306A\u3093\u304B\u6016\u3063\uFF01\n\u4ECA\u306E\u5370\u8C61:\u3068\u308A\u3042\u3048\u305A\u30AD\u30E2\u3044\u3002\u565B\u307F\u5408\u308F\u306A\u3044\n\u597D\u304D\u306A\u3068\u3053\u308D:\u3076\u3059\u3067\u30AD\u30E2\u3044\u3068\u3053\uD83D\uDE0B\u2728\u2728\n\u601D\u3044\u51FA:\u3093\u30FC\u30FC\u30FC\u3001\u3042\u308A\u3059\u304E\uD83D\uDE0A\u2764\uFE0F\nLINE\u4EA4\u63DB\u3067\u304D\u308B\uFF1F:\u3042\u3041\u2026\u2026\u3054\u3081\u3093\u270B\n\u30C8\u30D7\u753B\u3092\u307F\u3066:\u7167\u308C\u307E\u3059\u304C\u306A\uD83D\uDE18\u2728\n\u4E00\u8A00:\u304A\u524D\u306F\u4E00\u751F\u3082\u3093\u306E\u30C0\u30C1\uD83D\uDC96""") = Ok (bs "
第一印象:なんか怖っ！
今の印象:とりあえずキモい。噛み合わない
好きなところ:ぶすでキモいとこ😋✨✨
思い出:んーーー、ありすぎ😊❤️
LINE交換できる？:あぁ……ごめん✋
トプ画をみて:照れますがな😘✨
一言:お前は一生もんのダチ💖").
Proof. vm_compute. reflexivity. Qed.
Example t112 : escape (bs "
第一印象:なんか怖っ！
今の印象:とりあえずキモい。噛み合わない
好きなところ:ぶすでキモいとこ😋✨✨
思い出:んーーー、ありすぎ😊❤️
LINE交換できる？:あぁ……ごめん✋
トプ画をみて:照れますがな😘✨
一言:お前は一生もんのダチ💖") = bs """\n第一印象:なんか怖っ！\n今の印象:とりあえずキモい。噛み合わない\n好きなところ:ぶすでキモいとこ😋✨✨\n思い出:んーーー、ありすぎ😊❤️\nLINE交換できる？:あぁ……ごめん✋\nトプ画をみて:照れますがな😘✨\n一言:お前は一生もんのダチ💖""".
Proof. vm_compute. reflexivity. Qed.
Example t113 : escape [97;100;34;92;47;8;12;10;13;9;0;115;102]%N = [34;97;100;92;34;92;92;47;92;98;92;102;92;110;92;114;92;116;92;117;48;48;48;48;115;102;34]%N.
Proof. vm_compute. reflexivity. Qed.
Example t114 : unescape (bs """adsf") = Ok []%N.
Proof. vm_compute. reflexivity. Qed.
Example t115 : unescape (bs """ad\sf""") = Ok [97;100]%N.
Proof. vm_compute. reflexivity. Qed.
Example t116 : unescape (bs """ad\""\\\/\b\f\n\r\tsf""") = Ok [97;100;34;92;47;8;12;10;13;9;115;102]%N.
Proof. vm_compute. reflexivity. Qed.
Example t117 : unescape (bs """ad\uD83Dsf""") = Ok [97;100;239;191;189;115;102]%N.
Proof. vm_compute. reflexivity. Qed.
Example t118 : unescape (bs """ad\uD83D\usf""") = Ok [97;100;239;191;189]%N.
Proof. vm_compute. reflexivity. Qed.
Example t119 : unescape (bs """ad\uD83D\uxxxxsf""") = Ok [97;100;239;191;189;115;102]%N.
Proof. vm_compute. reflexivity. Qed.
Example t120 : unescape (bs """ad\uD83D\u00FFsf""") = Ok [97;100;239;191;189;115;102]%N.
Proof. vm_compute. reflexivity. Qed.
(* path.rs *)
Definition path_after (n : nat) (s : string) : R (bytes * N * bool * bool) :=
  p <- path_new (bs s) ;;
  p <- Nat.iter n (fun p => p <- p ;; p_next p) (Ok p) ;;
  Ok (p_comp p, p_sep p, p_esc p, p_pat p).
Example t121 : path_after 0 "hello.j*ello|12\3.ab*\c.[hel.lo,je\.llo]" = Ok (bs "hello", 46%N, false, false).
Proof. vm_compute. reflexivity. Qed.
Example t122 : path_after 1 "hello.j*ello|12\3.ab*\c.[hel.lo,je\.llo]" = Ok (bs "j*ello", 124%N, false, true).
Proof. vm_compute. reflexivity. Qed.
Example t123 : path_after 2 "hello.j*ello|12\3.ab*\c.[hel.lo,je\.llo]" = Ok (bs "12\3", 46%N, true, false).
Proof. vm_compute. reflexivity. Qed.
Example t124 : path_after 3 "hello.j*ello|12\3.ab*\c.[hel.lo,je\.llo]" = Ok (bs "ab*\c", 46%N, true, true).
Proof. vm_compute. reflexivity. Qed.
Example t125 : path_after 4 "hello.j*ello|12\3.ab*\c.[hel.lo,je\.llo]" = Ok (bs "[hel.lo,je\.llo]", 0%N, false, false).
Proof. vm_compute. reflexivity. Qed.
Example t126 : path_after 5 "hello.j*ello|12\3.ab*\c.[hel.lo,je\.llo]" = Ok (bs "", 0%N, false, false).
Proof. vm_compute. reflexivity. Qed.
Example t127 : (p <- path_new (bs "#(hello=world)") ;; query_parts (p_comp p)) = Ok (bs "hello", bs "=", bs "world").
Proof. vm_compute. reflexivity. Qed.
Example t128 : (p <- path_new (bs "") ;; query_parts (p_comp p)) = Ok ([], [], []).
Proof. vm_compute. reflexivity. Qed.
(* test.rs *)
Example t129 : get_json "{""user"":[
        {""first"":""tom"",""age"":72},
        {""last"":""anderson"",""age"":68}
    ]}" "user.@join.@ugly" = Ok (bs "{""first"":""tom"",""age"":68,""last"":""anderson""}").
Proof. vm_compute. reflexivity. Qed.
Example t130 : get_json "{""user"":[
        {""first"":""tom"",""age"":72},
        {""last"":""anderson"",""age"":68}
    ]}" "user.@join:{""preserve"":true}.@ugly" = Ok (bs "{""first"":""tom"",""age"":72,""last"":""anderson"",""age"":68}").
Proof. vm_compute. reflexivity. Qed.
Example t131 : get_json "[1,[2],[3,4],[5,[6,7]]]" "@flatten" = Ok (bs "[1,2,3,4,5,[6,7]]").
Proof. vm_compute. reflexivity. Qed.
Example t132 : get_json "[1,[2],[3,4],[5,[6,7]]]" "@flatten:{""deep"":true}" = Ok (bs "[1,2,3,4,5,6,7]").
Proof. vm_compute. reflexivity. Qed.
Definition QJ := "{
        ""friends"": [
            {""first"": ""Dale"", ""last"": ""Murphy"", ""age"": 44, ""nets"": [{""net"":""ig""}, ""fb"", ""tw""]},
            {""first"": ""Roger"", ""last"": ""Craig"", ""age"": 68, ""nets"": [""fb"", ""tw""]},
            {""first"": ""Jane"", ""last"": ""Murphy"", ""age"": 47, ""nets"": [""ig"", ""tw""]}
            ]
        }
        ".
Example t133 : get_json QJ "frie\nds.#(ne\ts.#(ne\t=ig)).@ugly" = Ok (bs "{""first"":""Dale"",""last"":""Murphy"",""age"":44,""nets"":[{""net"":""ig""},""fb"",""tw""]}").
Proof. vm_compute. reflexivity. Qed.
Definition JL := "
        {""a"": 1 }
        {""a"": 2 }
        true
        false
        4
    ".
Example t134 : get_i32 JL "..#" = Ok 5%Z.
Proof. vm_compute. reflexivity. Qed.
Example t135 : get_i32 JL "..0.a" = Ok 1%Z.
Proof. vm_compute. reflexivity. Qed.
Example t136 : get_i32 JL "..1.a" = Ok 2%Z.
Proof. vm_compute. reflexivity. Qed.
Example t137 : get_json JL "..#.@this|@ugly" = Ok (bs "[{""a"":1},{""a"":2},true,false,4]").
Proof. vm_compute. reflexivity. Qed.
Example t138 : get_json JL "..#.@this|@join|@ugly" = Ok (bs "{""a"":2}").
Proof. vm_compute. reflexivity. Qed.
Definition PG := "
    {
        ""programmers"": [
          {
            ""firstName"": ""Janet"", 
            ""lastName"": ""McLaughlin"", 
          }, {
            ""firstName"": ""Elliotte"", 
            ""lastName"": ""Hunter"", 
          }, {
            ""firstName"": ""Jason"", 
            ""lastName"": ""Harold"", 
          }
        ]
      }
    ".
Fixpoint mapR {A B} (f : A -> R B) (l : list A) : R (list B) :=
  match l with [] => Ok [] | x :: t => y <- f x ;; r <- mapR f t ;; Ok (y :: r) end.
Example t139 : (v <- get (bs PG) (bs "programmers.#.lastName") ;; a <- v_array v ;; mapR v_str a) = Ok [bs "McLaughlin"; bs "Hunter"; bs "Harold"].
Proof. vm_compute. reflexivity. Qed.
Example t140 : get_str PG "programmers.#(lastName=Hunter).firstName" = Ok (bs "Elliotte").
Proof. vm_compute. reflexivity. Qed.
Definition EQ := "
    {
        ""name"": {""first"": ""Tom"", ""last"": ""Anderson""},
        ""age"":37,
        ""children"": [""Sara"",""Alex"",""Jack""],
        ""fav.movie"": ""Deer Hunter"",
        ""friends"": [
          {""first"": ""Dale"", ""last"": ""Mur\""phy"", ""age"": 44, ""nets"": [""ig"", ""fb"", ""tw""]},
          {""first"": ""Roger"", ""last"": ""Craig"", ""age"": 68, ""nets"": [""fb"", ""tw""]},
          {""first"": ""Jane"", ""last"": ""Murphy"", ""age"": 47, ""nets"": [""ig"", ""tw""]}
        ]
      }
    }
    ".
Example t141 : get_i32 EQ "friends.#(last=""Mur\""phy"").age" = Ok 44%Z.
Proof. vm_compute. reflexivity. Qed.
Example t142 : get_i32 EQ "friends.#(last=""Murphy"").age" = Ok 47%Z.
Proof. vm_compute. reflexivity. Qed.
Definition BC := "
    {
		""vals"": [
			{ ""a"": 1, ""b"": true },
			{ ""a"": 2, ""b"": true },
			{ ""a"": 3, ""b"": false },
			{ ""a"": 4, ""b"": ""0"" },
			{ ""a"": 5, ""b"": 0 },
			{ ""a"": 6, ""b"": ""1"" },
			{ ""a"": 7, ""b"": 1 },
			{ ""a"": 8, ""b"": ""true"" },
			{ ""a"": 9, ""b"": false },
			{ ""a"": 10, ""b"": null },
			{ ""a"": 11 }
		]
	}
    ".
Example t143 : get_json BC "vals.#(b==~true)#.a" = Ok (bs "[1,2,6,7,8]").
Proof. vm_compute. reflexivity. Qed.
(* README.md *)
Definition EXM := "
{
  ""name"": {""first"": ""Tom"", ""last"": ""Anderson""},
  ""age"":37,
  ""children"": [""Sara"",""Alex"",""Jack""],
  ""fav.movie"": ""Deer Hunter"",
  ""friends"": [
    {""first"": ""Dale"", ""last"": ""Murphy"", ""age"": 44, ""nets"": [""ig"", ""fb"", ""tw""]},
    {""first"": ""Roger"", ""last"": ""Craig"", ""age"": 68, ""nets"": [""fb"", ""tw""]},
    {""first"": ""Jane"", ""last"": ""Murphy"", ""age"": 47, ""nets"": [""ig"", ""tw""]}
  ]
}
".
Example t144 : get_json EXM "name.last" = Ok (bs """Anderson""").
Proof. vm_compute. reflexivity. Qed.
Example t145 : get_json EXM "age" = Ok (bs "37").
Proof. vm_compute. reflexivity. Qed.
Example t146 : get_json EXM "children" = Ok (bs "[""Sara"",""Alex"",""Jack""]").
Proof. vm_compute. reflexivity. Qed.
Example t147 : get_json EXM "children.#" = Ok (bs "3").
Proof. vm_compute. reflexivity. Qed.
Example t148 : get_json EXM "children.1" = Ok (bs """Alex""").
Proof. vm_compute. reflexivity. Qed.
Example t149 : get_json EXM "child*.2" = Ok (bs """Jack""").
Proof. vm_compute. reflexivity. Qed.
Example t150 : get_json EXM "c?ildren.0" = Ok (bs """Sara""").
Proof. vm_compute. reflexivity. Qed.
Example t151 : get_json EXM "fav\.movie" = Ok (bs """Deer Hunter""").
Proof. vm_compute. reflexivity. Qed.
Example t152 : get_json EXM "friends.#.first" = Ok (bs "[""Dale"",""Roger"",""Jane""]").
Proof. vm_compute. reflexivity. Qed.
Example t153 : get_json EXM "friends.1.last" = Ok (bs """Craig""").
Proof. vm_compute. reflexivity. Qed.
Example t154 : get_json EXM "friends.#(last==""Murphy"").first" = Ok (bs """Dale""").
Proof. vm_compute. reflexivity. Qed.
Example t155 : get_json EXM "friends.#(last==""Murphy"")#.first" = Ok (bs "[""Dale"",""Jane""]").
Proof. vm_compute. reflexivity. Qed.
Example t156 : get_json EXM "friends.#(age>45)#.last" = Ok (bs "[""Craig"",""Murphy""]").
Proof. vm_compute. reflexivity. Qed.
Example t157 : get_json EXM "friends.#(first%""D*"").last" = Ok (bs """Murphy""").
Proof. vm_compute. reflexivity. Qed.
Example t158 : get_json EXM "friends.#(first!%""D*"").last" = Ok (bs """Craig""").
Proof. vm_compute. reflexivity. Qed.
Example t159 : get_json EXM "friends.#(nets.#(==""fb""))#.first" = Ok (bs "[""Dale"",""Roger""]").
Proof. vm_compute. reflexivity. Qed.
Example t160 : get_json EXM "children|@reverse" = Ok (bs "[""Jack"",""Alex"",""Sara""]").
Proof. vm_compute. reflexivity. Qed.
Example t161 : get_json EXM "children|@reverse|0" = Ok (bs """Jack""").
Proof. vm_compute. reflexivity. Qed.
Example t162 : get_json EXM "{name.first,age,""the_murphys"":friends.#(last=""Murphy"")#.first}" = Ok (bs "{""first"":""Tom"",""age"":37,""\""the_murphys\"""":[""Dale"",""Jane""]}").
Proof. vm_compute. reflexivity. Qed.
Example t163 : get_json EXM "[name.first,age,nothing,[children.#,friends.#]]" = Ok (bs "[""Tom"",37,[3,3]]").
Proof. vm_compute. reflexivity. Qed.
Example t164 : get_json EXM "@pretty:{""sortKeys"":true}.age" = Ok (bs "37").
Proof. vm_compute. reflexivity. Qed.
Definition JL2 := "{""name"": ""Gilbert"", ""age"": 61}
{""name"": ""Alexa"", ""age"": 34}
{""name"": ""May"", ""age"": 57}
{""name"": ""Deloise"", ""age"": 44}
".
Example t165 : get_json JL2 "..#" = Ok (bs "4").
Proof. vm_compute. reflexivity. Qed.
Example t166 : get_json JL2 "..1" = Ok (bs "{""name"": ""Alexa"", ""age"": 34}").
Proof. vm_compute. reflexivity. Qed.
Example t167 : get_json JL2 "..3" = Ok (bs "{""name"": ""Deloise"", ""age"": 44}").
Proof. vm_compute. reflexivity. Qed.
Example t168 : get_json JL2 "..#.name" = Ok (bs "[""Gilbert"",""Alexa"",""May"",""Deloise""]").
Proof. vm_compute. reflexivity. Qed.
Example t169 : get_json JL2 "..#(name=""May"").age" = Ok (bs "57").
Proof. vm_compute. reflexivity. Qed.
Example t170 : get_json "{""a"":{"""":1}}" "a." = Ok (bs "1").
Proof. vm_compute. reflexivity. Qed.
