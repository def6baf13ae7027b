(** Generated by tools/gen_tables.py from /repo/utide/data/ut_constants.npz; do not edit.
    Every binary64 value is given exactly, as a rational number. *)
From Coq Require Import List String ZArith QArith.
Import ListNotations.

(** utide/data/ut_constants.npz, const.name (fixed width, blank padded) (146 entries) *)
Definition const_name_raw : list (string) := [
  "Z0  "; "SA  "; "SSA "; "MSM "; "MM  "; "MSF "; "MF  "; "ALP1"; "2Q1 "; "SIG1"; "Q1  "; "RHO1"; "O1  "; 
  "TAU1"; "BET1"; "NO1 "; "CHI1"; "PI1 "; "P1  "; "S1  "; "K1  "; "PSI1"; "PHI1"; "THE1"; "J1  "; "2PO1"; 
  "SO1 "; "OO1 "; "UPS1"; "ST36"; "2NS2"; "ST37"; "ST1 "; "OQ2 "; "EPS2"; "ST2 "; "ST3 "; "O2  "; "2N2 "; 
  "MU2 "; "SNK2"; "N2  "; "NU2 "; "ST4 "; "OP2 "; "GAM2"; "H1  "; "M2  "; "H2  "; "MKS2"; "ST5 "; "ST6 "; 
  "LDA2"; "L2  "; "2SK2"; "T2  "; "S2  "; "R2  "; "K2  "; "MSN2"; "ETA2"; "ST7 "; "2SM2"; "ST38"; "SKM2"; 
  "2SN2"; "NO3 "; "MO3 "; "M3  "; "NK3 "; "SO3 "; "MK3 "; "SP3 "; "SK3 "; "ST8 "; "N4  "; "3MS4"; "ST39"; 
  "MN4 "; "ST9 "; "ST40"; "M4  "; "ST10"; "SN4 "; "KN4 "; "MS4 "; "MK4 "; "SL4 "; "S4  "; "SK4 "; "MNO5"; 
  "2MO5"; "3MP5"; "MNK5"; "2MP5"; "2MK5"; "MSK5"; "3KM5"; "2SK5"; "ST11"; "2NM6"; "ST12"; "2MN6"; "ST13"; 
  "ST41"; "M6  "; "MSN6"; "MKN6"; "ST42"; "2MS6"; "2MK6"; "NSK6"; "2SM6"; "MSK6"; "S6  "; "ST14"; "ST15"; 
  "M7  "; "ST16"; "3MK7"; "ST17"; "ST18"; "3MN8"; "ST19"; "M8  "; "ST20"; "ST21"; "3MS8"; "3MK8"; "ST22"; 
  "ST23"; "ST24"; "ST25"; "ST26"; "4MK9"; "ST27"; "ST28"; "M10 "; "ST29"; "ST30"; "ST31"; "ST32"; "ST33"; 
  "M12 "; "ST34"; "ST35"
]%string.

(** utide/data/ut_constants.npz, const.freq, cycles per hour (146 entries) *)
Definition const_freq : list (Q) := [
  (0#1); (8417182912555003#73786976294838206464); (4208792525787905#18446744073709551616); 
  (6040297802564639#4611686018427387904); (54481010264061#36028797018963968); 
  (1626733447191631#576460752303423488); (1758258213622503#576460752303423488); 
  (4957068140302823#144115188075855872); (643228430829121#18014398509481984); 
  (2587496097885293#72057594037927936); (5363751502100731#144115188075855872); 
  (2696458118413415#72057594037927936); (5581675543156975#144115188075855872); 
  (1403639187294053#36028797018963968); (5770434863898639#144115188075855872); 
  (5803316055506357#144115188075855872); (729060098779057#18014398509481984); 
  (5971919094578799#144115188075855872); (5988358904954883#144115188075855872); 
  (6004800286186517#144115188075855872); (6021240096562601#144115188075855872); 
  (6037679906938685#144115188075855872); (6054121288170319#144115188075855872); 
  (3104999701446373#72057594037927936); (6239164152030363#144115188075855872); 
  (3197521133376395#72057594037927936); (1606980864590127#36028797018963968); 
  (3230402324984113#72057594037927936); (3339364345512235#72057594037927936); 
  (5285812444739517#72057594037927936); (2690096048952295#36028797018963968); 
  (5394774465267639#72057594037927936); (5396632693708449#72057594037927936); 
  (2737285875534831#36028797018963968); (686144264804089#9007199254740992); 
  (2752797360721165#36028797018963968); (5565234954558875#72057594037927936); 
  (2790837775181367#36028797018963968); (697941722350443#9007199254740992); 
  (5598116146166593#72057594037927936); (5676055203527807#72057594037927936); 
  (2846247899665833#36028797018963968); (5707078166694715#72057594037927936); 
  (715672123867423#9007199254740992); (723127153907711#9007199254740992); (2893437726248369#36028797018963968); 
  (5793237921877505#72057594037927936); (5801457827065547#72057594037927936); 
  (5809677732253589#72057594037927936); (2908949211434703#36028797018963968); 
  (5834339018673265#72057594037927936); (5879396884426761#72057594037927936); 
  (1473959370057655#18014398509481984); (5910419847593669#72057594037927936); 
  (5988358904954883#72057594037927936); (1499144898892675#18014398509481984); 
  (3002399750379371#36028797018963968); (187906856435837#2251799813685248); 
  (6021240096562601#72057594037927936); (6113761528492623#72057594037927936); 
  (3065101062148241#36028797018963968); (6146642720100341#72057594037927936); 
  (6208141181657695#72057594037927936); (6222723549020745#72057594037927936); 
  (3112290888730777#36028797018963968); (6317103209391577#72057594037927936); 
  (1060416697264489#9007199254740992); (4296147799322017#36028797018963968); 
  (8702186736995441#72057594037927936); (4351557923806483#36028797018963968); 
  (2198909319885747#18014398509481984); (8812077875346847#72057594037927936); 
  (8998978953236183#72057594037927936); (4507709778122901#36028797018963968); 
  (5645305972749129#36028797018963968); (2846247899665833#18014398509481984); 
  (2849893493308035#18014398509481984); (5738756515296677#36028797018963968); 
  (2873488406599303#18014398509481984); (719399638887567#4503599627370496); 
  (2896618762780369#18014398509481984); (5801457823462667#36028797018963968); 
  (5809678121364597#36028797018963968); (1462161912511301#9007199254740992); 
  (5856867951550013#36028797018963968); (368945541494509#2251799813685248); 
  (2955674480907037#18014398509481984); (5957609674176205#36028797018963968); 
  (6004799504361621#36028797018963968); (6013019802263551#36028797018963968); 
  (3571197849493925#18014398509481984); (7196876712854791#36028797018963968); 
  (450318563172295#2251799813685248); (906535854667407#4503599627370496); (1824636887425347#9007199254740992); 
  (7306767847603317#36028797018963968); (3704219344026397#18014398509481984); 
  (1854164746488681#9007199254740992); (7510109528502271#36028797018963968); 
  (2136741000125577#9007199254740992); (8593224712864439#36028797018963968); 
  (8601445010766369#36028797018963968); (2161926430782125#9007199254740992); 
  (8655926024633309#36028797018963968); (8693966439093511#36028797018963968); 
  (8702186736995441#36028797018963968); (8749376563577977#36028797018963968); 
  (8757596861479907#36028797018963968); (2198909319885747#9007199254740992); 
  (4401928788722459#18014398509481984); (8812077875346847#36028797018963968); 
  (1107408462741173#4503599627370496); (8905528414291515#36028797018963968); 
  (8913748712193445#36028797018963968); (1#4); (627695288282539#2251799813685248); 
  (5049267368502545#18014398509481984); (2538137797990097#9007199254740992); 
  (5099638231617081#18014398509481984); (2551874190284023#9007199254740992); 
  (322161487549549#1125899906842624); (2873488406599303#9007199254740992); 
  (5774217318330637#18014398509481984); (2889163733640801#9007199254740992); 
  (5801457825264107#18014398509481984); (5825052738555375#18014398509481984); 
  (1457290721876585#4503599627370496); (2926146621843703#9007199254740992); 
  (5856403392638371#18014398509481984); (5879998307731079#18014398509481984); 
  (368945541494509#1125899906842624); (5907238812863109#18014398509481984); 
  (6499631825268931#18014398509481984); (3263436165200481#9007199254740992); (204816026166701#562949953421312); 
  (6604948255757731#18014398509481984); (112884090235891#281474976710656); (3625911140114527#9007199254740992); 
  (3637708596760161#9007199254740992); (7302657700453793#18014398509481984); 
  (7330362762696025#18014398509481984); (7353493120678531#18014398509481984); 
  (4027656356262059#9007199254740992); (8702186736995441#18014398509481984); 
  (8753022157220179#18014398509481984); (2195181804865603#4503599627370496)
]%Q.

(** utide/data/ut_constants.npz, const.df (146 entries) *)
Definition const_df : list (Q) := [
  (0#1); (8417987190596617#73786976294838206464); (4208792525787905#18446744073709551616); 
  (933271511235169#4611686018427387904); (755037282966655#576460752303423488); 
  (1626733447191631#576460752303423488); (16440595803859#72057594037927936); 
  (188759306330145#144115188075855872); (217924055467763#144115188075855872); 
  (14582374568809#72057594037927936); (54481010264061#36028797018963968); (29164734726099#144115188075855872); 
  (219782276702813#72057594037927936); (32881206019237#144115188075855872); (16440595803859#72057594037927936); 
  (54481010264061#36028797018963968); (29164734726099#144115188075855872); (4109952594021#36028797018963968); 
  (16440595803859#72057594037927936); (4109952594021#36028797018963968); (6021240096562601#144115188075855872); 
  (4109952594021#36028797018963968); (16440595803859#72057594037927936); (29164749137617#144115188075855872); 
  (108962027733881#72057594037927936); (0#1); (16440595803859#72057594037927936); 
  (221640497937863#144115188075855872); (54481010264061#36028797018963968); (0#1); (0#1); (0#1); (0#1); 
  (7291183681525#36028797018963968); (5898728773177#4503599627370496); (0#1); (0#1); (0#1); 
  (14582367363049#72057594037927936); (94379653165073#72057594037927936); (0#1); 
  (108962027733881#72057594037927936); (14582367363049#72057594037927936); (0#1); (0#1); 
  (6362469380767#72057594037927936); (4109952594021#36028797018963968); (5801457827065547#72057594037927936); 
  (4109952594021#36028797018963968); (16440595803859#72057594037927936); (0#1); (0#1); 
  (14582367363049#72057594037927936); (94379653165073#72057594037927936); (0#1); 
  (4109952594021#36028797018963968); (203341673693195#72057594037927936); (4109952594021#36028797018963968); 
  (16440595803859#72057594037927936); (16440595803859#72057594037927936); (108962027733881#72057594037927936); 
  (0#1); (0#1); (0#1); (0#1); (0#1); (0#1); (109891138351407#72057594037927936); 
  (1450364454964947#36028797018963968); (0#1); (16440595803859#72057594037927936); 
  (54945569175703#36028797018963968); (0#1); (203341680898955#72057594037927936); (0#1); (0#1); (0#1); (0#1); 
  (54481010264061#36028797018963968); (0#1); (0#1); (2900728909929893#72057594037927936); (0#1); 
  (47189826582537#36028797018963968); (0#1); (101670840449477#36028797018963968); 
  (4110148950965#18014398509481984); (0#1); (101670840449477#36028797018963968); 
  (4110148950965#18014398509481984); (0#1); (0#1); (0#1); (0#1); (0#1); (752655012070325#18014398509481984); 
  (0#1); (0#1); (101670840449477#18014398509481984); (0#1); (0#1); (0#1); (54481013866941#36028797018963968); 
  (0#1); (0#1); (348854722348031#9007199254740992); (0#1); (0#1); (0#1); (101670840449477#36028797018963968); 
  (8220297901929#36028797018963968); (0#1); (101670836846597#36028797018963968); 
  (4110148950965#18014398509481984); (0#1); (0#1); (0#1); (0#1); (0#1); (1505310024140651#36028797018963968); 
  (0#1); (0#1); (0#1); (0#1); (697709444696061#18014398509481984); (0#1); (0#1); (0#1); (0#1); (0#1); (0#1); 
  (0#1); (0#1); (0#1); (0#1); (0#1); (0#1); (0#1); (0#1); (0#1); (0#1); (0#1); (0#1); (0#1); (0#1); (0#1)
]%Q.

(** utide/data/ut_constants.npz, const.ikmpr, 1-based; None = NaN (146 entries) *)
Definition const_ikmpr : list (option nat) := [
  Some 48; Some 3; Some 1; Some 5; Some 6; Some 1; Some 6; Some 9; Some 11; Some 9; Some 13; Some 11; Some 21; 
  Some 13; Some 16; Some 21; Some 16; Some 19; Some 21; Some 21; Some 1; Some 21; Some 21; Some 25; Some 21; 
  None; Some 28; Some 25; Some 28; None; None; None; None; Some 35; Some 39; None; None; None; Some 40; 
  Some 42; None; Some 48; Some 42; None; None; Some 47; Some 48; Some 1; Some 48; Some 48; None; None; Some 54; 
  Some 57; None; Some 57; Some 48; Some 57; Some 57; Some 61; Some 59; None; None; None; None; None; None; 
  Some 69; Some 48; None; Some 72; Some 69; None; Some 72; None; None; None; None; Some 82; None; None; 
  Some 69; None; Some 82; None; Some 82; Some 86; None; Some 86; Some 89; None; None; None; None; None; 
  Some 82; None; None; Some 96; None; None; None; Some 106; None; None; Some 96; None; None; None; Some 106; 
  Some 110; None; Some 110; Some 113; None; None; None; None; None; Some 106; None; None; None; None; Some 120; 
  None; None; None; None; None; None; None; None; None; None; None; None; None; None; None; None; None; None; 
  None; None; None
]%nat.

(** utide/data/ut_constants.npz, const.semi; None = NaN (146 entries) *)
Definition const_semi : list (option Q) := [
  Some (0#1); Some (0#1); Some (0#1); Some (0#1); Some (0#1); Some (0#1); Some (0#1); Some (-1#4); Some (-1#4); 
  Some (-1#4); Some (-1#4); Some (-1#4); Some (-1#4); Some (-3#4); Some (-3#4); Some (-3#4); Some (-3#4); 
  Some (-1#4); Some (-1#4); Some (-3#4); Some (-3#4); Some (-3#4); Some (-3#4); Some (-3#4); Some (-3#4); None; 
  None; Some (-3#4); Some (-3#4); None; None; None; None; Some (0#1); Some (0#1); None; None; None; Some (0#1); 
  Some (0#1); None; Some (0#1); Some (0#1); None; None; Some (-1#2); Some (-1#2); Some (0#1); Some (0#1); None; 
  None; None; Some (-1#2); Some (-1#2); None; Some (0#1); Some (0#1); Some (-1#2); Some (0#1); None; 
  Some (0#1); None; None; None; None; None; None; None; Some (-1#2); None; None; None; None; None; None; None; 
  None; None; None; None; None; None; None; None; None; None; None; None; None; None; None; None; None; None; 
  None; None; None; None; None; None; None; None; None; None; None; None; None; None; None; None; None; None; 
  None; None; None; None; None; None; None; None; None; None; None; None; None; None; None; None; None; None; 
  None; None; None; None; None; None; None; None; None; None; None; None; None; None; None; None
]%Q.

(** utide/data/ut_constants.npz, const.doodson rows; None = a row of NaN (146 entries) *)
Definition const_doodson : list (option (list Z)) := [
  Some [0;0;0;0;0;0]; Some [0;0;1;0;0;(-1)]; Some [0;0;2;0;0;0]; Some [0;1;(-2);1;0;0]; Some [0;1;0;(-1);0;0]; 
  Some [0;2;(-2);0;0;0]; Some [0;2;0;0;0;0]; Some [1;(-4);2;1;0;0]; Some [1;(-3);0;2;0;0]; 
  Some [1;(-3);2;0;0;0]; Some [1;(-2);0;1;0;0]; Some [1;(-2);2;(-1);0;0]; Some [1;(-1);0;0;0;0]; 
  Some [1;(-1);2;0;0;0]; Some [1;0;(-2);1;0;0]; Some [1;0;0;1;0;0]; Some [1;0;2;(-1);0;0]; 
  Some [1;1;(-3);0;0;1]; Some [1;1;(-2);0;0;0]; Some [1;1;(-1);0;0;1]; Some [1;1;0;0;0;0]; 
  Some [1;1;1;0;0;(-1)]; Some [1;1;2;0;0;0]; Some [1;2;(-2);1;0;0]; Some [1;2;0;(-1);0;0]; None; None; 
  Some [1;3;0;0;0;0]; Some [1;4;0;(-1);0;0]; None; None; None; None; Some [2;(-3);0;3;0;0]; 
  Some [2;(-3);2;1;0;0]; None; None; None; Some [2;(-2);0;2;0;0]; Some [2;(-2);2;0;0;0]; None; 
  Some [2;(-1);0;1;0;0]; Some [2;(-1);2;(-1);0;0]; None; None; Some [2;0;(-2);2;0;0]; Some [2;0;(-1);0;0;1]; 
  Some [2;0;0;0;0;0]; Some [2;0;1;0;0;(-1)]; None; None; None; Some [2;1;(-2);1;0;0]; Some [2;1;0;(-1);0;0]; 
  None; Some [2;2;(-3);0;0;1]; Some [2;2;(-2);0;0;0]; Some [2;2;(-1);0;0;(-1)]; Some [2;2;0;0;0;0]; None; 
  Some [2;3;0;(-1);0;0]; None; None; None; None; None; None; None; Some [3;0;0;0;0;0]; None; None; None; None; 
  None; None; None; None; None; None; None; None; None; None; None; None; None; None; None; None; None; None; 
  None; None; None; None; None; None; None; None; None; None; None; None; None; None; None; None; None; None; 
  None; None; None; None; None; None; None; None; None; None; None; None; None; None; None; None; None; None; 
  None; None; None; None; None; None; None; None; None; None; None; None; None; None; None; None; None; None; 
  None
]%Z.

(** utide/data/ut_constants.npz, const.ishallow, 1-based; None = NaN (146 entries) *)
Definition const_ishallow : list (option nat) := [
  None; None; None; None; None; None; None; None; None; None; None; None; None; None; None; None; None; None; 
  None; None; None; None; None; None; None; Some 1; Some 3; None; None; Some 5; Some 8; Some 10; Some 12; None; 
  None; Some 15; Some 19; Some 22; None; None; Some 26; None; None; Some 23; Some 29; None; None; None; None; 
  Some 31; Some 34; Some 37; None; None; Some 41; None; None; None; None; Some 43; None; Some 46; Some 50; 
  Some 52; Some 55; Some 58; Some 60; Some 62; None; Some 64; Some 66; Some 68; Some 70; Some 72; Some 74; 
  Some 77; Some 78; Some 80; Some 84; Some 89; Some 86; Some 93; Some 94; Some 97; Some 99; Some 101; Some 103; 
  Some 105; Some 107; Some 108; Some 110; Some 113; Some 115; Some 117; Some 120; Some 122; Some 124; Some 127; 
  Some 130; Some 132; Some 135; Some 137; Some 144; Some 146; Some 141; Some 150; Some 151; Some 154; Some 169; 
  Some 157; Some 159; Some 161; Some 164; Some 166; Some 172; Some 173; Some 176; Some 179; Some 180; Some 183; 
  Some 185; Some 189; Some 191; Some 193; Some 197; Some 198; Some 201; Some 204; Some 206; Some 208; Some 212; 
  Some 214; Some 217; Some 220; Some 223; Some 225; Some 228; Some 230; Some 231; Some 234; Some 236; Some 240; 
  Some 242; Some 245; Some 246; Some 248
]%nat.

(** utide/data/ut_constants.npz, const.nshallow; None = NaN (146 entries) *)
Definition const_nshallow : list (option nat) := [
  None; None; None; None; None; None; None; None; None; None; None; None; None; None; None; None; None; None; 
  None; None; None; None; None; None; None; Some 2; Some 2; None; None; Some 3; Some 2; Some 2; Some 3; None; 
  None; Some 4; Some 3; Some 1; None; None; Some 3; None; None; Some 3; Some 2; None; None; None; None; Some 3; 
  Some 3; Some 4; None; None; Some 2; None; None; None; None; Some 3; None; Some 4; Some 2; Some 3; Some 3; 
  Some 2; Some 2; Some 2; None; Some 2; Some 2; Some 2; Some 2; Some 2; Some 3; Some 1; Some 2; Some 4; Some 2; 
  Some 4; Some 3; Some 1; Some 3; Some 2; Some 2; Some 2; Some 2; Some 2; Some 1; Some 2; Some 3; Some 2; 
  Some 2; Some 3; Some 2; Some 2; Some 3; Some 3; Some 2; Some 3; Some 2; Some 4; Some 2; Some 4; Some 3; 
  Some 1; Some 3; Some 3; Some 3; Some 2; Some 2; Some 3; Some 2; Some 3; Some 1; Some 3; Some 3; Some 1; 
  Some 3; Some 2; Some 4; Some 2; Some 2; Some 4; Some 1; Some 3; Some 3; Some 2; Some 2; Some 4; Some 2; 
  Some 3; Some 3; Some 3; Some 2; Some 3; Some 2; Some 1; Some 3; Some 2; Some 4; Some 2; Some 3; Some 1; 
  Some 2; Some 4
]%nat.

(** utide/data/ut_constants.npz, sat.iconst, 1-based (162 entries) *)
Definition sat_iconst : list (nat) := [
  8; 8; 9; 9; 9; 9; 9; 10; 10; 10; 10; 11; 11; 11; 11; 11; 11; 11; 11; 11; 11; 12; 12; 12; 12; 12; 13; 13; 13; 
  13; 13; 13; 13; 13; 14; 14; 14; 14; 14; 15; 16; 16; 16; 16; 16; 16; 16; 16; 16; 17; 17; 18; 19; 19; 19; 19; 
  19; 19; 20; 20; 21; 21; 21; 21; 21; 21; 21; 21; 21; 21; 22; 23; 23; 23; 23; 23; 24; 24; 24; 24; 25; 25; 25; 
  25; 25; 25; 25; 25; 25; 25; 28; 28; 28; 28; 28; 28; 28; 28; 29; 29; 29; 29; 29; 34; 34; 35; 35; 35; 39; 39; 
  39; 39; 40; 40; 40; 42; 42; 42; 42; 43; 43; 43; 43; 46; 46; 46; 47; 47; 48; 48; 48; 48; 48; 48; 48; 48; 48; 
  49; 53; 54; 54; 54; 54; 54; 57; 57; 57; 58; 58; 59; 59; 59; 59; 59; 61; 61; 61; 61; 61; 61; 61; 69
]%nat.

(** utide/data/ut_constants.npz, sat.deldood rows (162 entries) *)
Definition sat_deldood : list (list Z) := [
  [(-1);0;0]; [0;(-1);0]; [(-2);(-2);0]; [(-1);(-1);0]; [(-1);0;0]; [0;(-2);0]; [0;(-1);0]; [(-1);0;0]; 
  [0;(-2);0]; [0;(-1);0]; [2;0;0]; [(-2);(-3);0]; [(-2);(-2);0]; [(-1);(-2);0]; [(-1);(-1);0]; [(-1);0;0]; 
  [0;(-2);0]; [(-1);0;1]; [0;(-1);0]; [1;0;0]; [2;0;0]; [0;(-2);0]; [0;(-1);0]; [1;0;0]; [2;0;0]; [2;1;0]; 
  [(-1);0;0]; [0;(-2);0]; [0;(-1);0]; [1;(-1);0]; [1;0;0]; [1;1;0]; [2;0;0]; [2;1;0]; [(-2);0;0]; [(-1);0;0]; 
  [0;(-1);0]; [0;1;0]; [0;2;0]; [0;(-1);0]; [(-2);(-2);0]; [(-2);(-1);0]; [(-2);0;0]; [(-1);(-1);0]; 
  [(-1);0;0]; [(-1);1;0]; [0;(-1);0]; [0;1;0]; [0;2;0]; [0;(-1);0]; [0;1;0]; [0;(-1);0]; [0;(-2);0]; 
  [0;(-1);0]; [0;0;2]; [1;0;0]; [2;0;0]; [2;1;0]; [0;0;(-2)]; [0;1;0]; [(-2);(-1);0]; [(-1);(-1);0]; 
  [(-1);0;0]; [(-1);1;0]; [0;(-2);0]; [0;(-1);0]; [0;1;0]; [0;2;0]; [1;0;0]; [1;1;0]; [0;1;0]; [(-2);0;0]; 
  [(-2);1;0]; [0;0;(-2)]; [0;1;0]; [0;2;0]; [(-2);(-1);0]; [(-1);0;0]; [0;(-1);0]; [0;1;0]; [0;(-1);0]; 
  [0;1;0]; [0;2;0]; [1;(-1);0]; [1;0;0]; [1;1;0]; [1;2;0]; [2;0;0]; [2;1;0]; [2;2;0]; [(-2);(-1);0]; 
  [(-2);0;0]; [(-2);1;0]; [(-1);0;0]; [(-1);1;0]; [0;1;0]; [0;2;0]; [0;3;0]; [(-2);0;0]; [0;1;0]; [0;2;0]; 
  [1;0;0]; [1;1;0]; [(-1);0;0]; [0;(-1);0]; [(-1);(-1);0]; [(-1);0;0]; [0;(-1);0]; [(-2);(-2);0]; 
  [(-1);(-1);0]; [(-1);0;0]; [0;(-1);0]; [(-1);(-1);0]; [(-1);0;0]; [0;(-1);0]; [(-2);(-2);0]; [(-1);0;1]; 
  [0;(-2);0]; [0;(-1);0]; [0;(-1);0]; [1;0;0]; [2;0;0]; [2;1;0]; [(-2);(-2);0]; [(-1);0;0]; [0;(-1);0]; 
  [0;(-1);0]; [1;0;(-1)]; [(-1);(-1);0]; [(-1);0;0]; [0;(-2);0]; [0;(-1);0]; [1;(-1);0]; [1;0;0]; [1;1;0]; 
  [2;0;0]; [2;1;0]; [0;(-1);0]; [0;(-1);0]; [0;(-1);0]; [2;(-1);0]; [2;0;0]; [2;1;0]; [2;2;0]; [0;(-1);0]; 
  [1;0;0]; [2;0;0]; [0;0;2]; [0;1;2]; [(-1);0;0]; [(-1);1;0]; [0;(-1);0]; [0;1;0]; [0;2;0]; [0;(-1);0]; 
  [0;1;0]; [0;2;0]; [1;0;0]; [1;1;0]; [1;2;0]; [2;0;0]; [0;(-1);0]
]%Z.

(** utide/data/ut_constants.npz, sat.phcorr, cycles (162 entries) *)
Definition sat_phcorr : list (Q) := [
  (3#4); (0#1); (1#2); (3#4); (3#4); (1#2); (0#1); (3#4); (1#2); (0#1); (1#2); (1#2); (1#2); (3#4); (3#4); 
  (3#4); (1#2); (0#1); (0#1); (3#4); (1#2); (1#2); (0#1); (3#4); (1#2); (0#1); (1#4); (1#2); (0#1); (1#4); 
  (3#4); (1#4); (1#2); (1#2); (0#1); (1#4); (1#2); (1#2); (1#2); (0#1); (1#2); (0#1); (0#1); (3#4); (1#4); 
  (3#4); (1#2); (0#1); (1#2); (1#2); (0#1); (1#2); (0#1); (1#2); (1#2); (3#4); (1#2); (1#2); (0#1); (1#2); 
  (0#1); (3#4); (1#4); (3#4); (0#1); (1#2); (0#1); (1#2); (1#4); (1#4); (0#1); (0#1); (0#1); (0#1); (1#2); 
  (1#2); (0#1); (1#4); (1#2); (0#1); (1#2); (0#1); (1#2); (3#4); (1#4); (1#4); (1#4); (1#2); (1#2); (1#2); 
  (1#2); (0#1); (0#1); (1#4); (1#4); (0#1); (0#1); (0#1); (0#1); (0#1); (0#1); (1#4); (1#4); (1#4); (1#2); 
  (1#4); (1#4); (1#2); (1#2); (1#4); (1#4); (1#2); (1#4); (1#4); (1#2); (1#2); (0#1); (0#1); (1#2); (1#2); 
  (3#4); (0#1); (1#2); (0#1); (1#4); (1#2); (1#2); (1#2); (3#4); (3#4); (0#1); (1#2); (1#4); (3#4); (3#4); 
  (0#1); (0#1); (1#2); (1#2); (1#2); (0#1); (1#2); (1#2); (1#2); (0#1); (3#4); (0#1); (1#2); (0#1); (3#4); 
  (3#4); (1#2); (0#1); (0#1); (1#2); (0#1); (0#1); (3#4); (3#4); (3#4); (1#2); (1#2)
]%Q.

(** utide/data/ut_constants.npz, sat.amprat (162 entries) *)
Definition sat_amprat : list (Q) := [
  (5188146770730811#144115188075855872); (1716772177953633#9007199254740992); 
  (226981421219473#36028797018963968); (6946352065256253#288230376151711744); 
  (8747791916204451#144115188075855872); (226981421219473#36028797018963968); 
  (1697857059518677#9007199254740992); (5476377146882523#576460752303423488); 
  (7032821178101767#1152921504606846976); (1696956339593203#9007199254740992); 
  (626901068129973#72057594037927936); (6456360425798343#9223372036854775808); 
  (4496393867966703#1152921504606846976); (1152921504606847#1152921504606846976); 
  (3314649325744685#288230376151711744); (8416326983629983#288230376151711744); 
  (1642913144064757#288230376151711744); (7378697629483821#9223372036854775808); 
  (1696956339593203#9007199254740992); (4150517416584649#2305843009213693952); 
  (6456360425798343#2305843009213693952); (208967022709991#36028797018963968); 
  (6780619598969019#36028797018963968); (117994310237107#9007199254740992); 
  (4150517416584649#72057594037927936); (1261007895663739#72057594037927936); 
  (5534023222112865#18446744073709551616); (208967022709991#36028797018963968); 
  (1697857059518677#9007199254740992); (7378697629483821#18446744073709551616); 
  (208967022709991#72057594037927936); (7378697629483821#18446744073709551616); 
  (7378697629483821#1152921504606846976); (1152921504606847#1152921504606846976); 
  (1606884347045793#36028797018963968); (1534826753007865#36028797018963968); 
  (4092871341354307#144115188075855872); (7818248953115181#36028797018963968); 
  (4092871341354307#288230376151711744); (8164125404497235#36028797018963968); 
  (1642913144064757#288230376151711744); (149744687610069#2251799813685248); 
  (6477977704009721#18014398509481984); (4770212725310829#144115188075855872); 
  (2005903274030819#9007199254740992); (8358680908399641#288230376151711744); 
  (8358680908399641#288230376151711744); (7220170922600379#36028797018963968); 
  (3112888062438487#576460752303423488); (8128096607478271#288230376151711744); 
  (1969874477011855#9007199254740992); (4496393867966703#576460752303423488); 
  (7378697629483821#9223372036854775808); (6456360425798343#576460752303423488); 
  (7378697629483821#18446744073709551616); (7378697629483821#18446744073709551616); 
  (3458764513820541#2305843009213693952); (5534023222112865#18446744073709551616); 
  (6366288433250933#18014398509481984); (3804640965202595#144115188075855872); 
  (7378697629483821#36893488147419103232); (7378697629483821#73786976294838206464); 
  (6456360425798343#9223372036854775808); (7378697629483821#73786976294838206464); 
  (7378697629483821#73786976294838206464); (5706961447803893#288230376151711744); 
  (2442752437885757#18014398509481984); (208967022709991#72057594037927936); 
  (7378697629483821#36893488147419103232); (7378697629483821#73786976294838206464); 
  (5476377146882523#288230376151711744); (2478781234904721#72057594037927936); 
  (6110483974416289#576460752303423488); (3804640965202595#288230376151711744); 
  (5534023222112865#144115188075855872); (5332261958806667#288230376151711744); 
  (1080863910568919#36028797018963968); (8128096607478271#576460752303423488); 
  (4568451462004631#144115188075855872); (7180539245879519#36028797018963968); 
  (8473973058860325#288230376151711744); (3566850904877433#18014398509481984); 
  (5418731071652181#1152921504606846976); (3112888062438487#1152921504606846976); 
  (734987459186865#9007199254740992); (4770212725310829#144115188075855872); 
  (3112888062438487#1152921504606846976); (8762203435012037#576460752303423488); 
  (2824657686286775#288230376151711744); (1642913144064757#288230376151711744); 
  (2132904783522667#576460752303423488); (2694954017018505#18014398509481984); 
  (2132904783522667#72057594037927936); (3458764513820541#144115188075855872); 
  (5706961447803893#576460752303423488); (5762806083183287#9007199254740992); 
  (4835064559944965#36028797018963968); (2478781234904721#288230376151711744); 
  (4402718995717397#72057594037927936); (5763706803108761#9007199254740992); 
  (4748595447099451#36028797018963968); (8329857870784469#288230376151711744); 
  (462970041693687#18014398509481984); (7508401298752091#72057594037927936); 
  (5562846259728037#144115188075855872); (1080863910568919#144115188075855872); 
  (2896715280324703#72057594037927936); (335968532201839#9007199254740992); 
  (7032821178101767#1152921504606846976); (6744590801950055#576460752303423488); 
  (2442752437885757#36028797018963968); (2694954017018505#72057594037927936); 
  (4150517416584649#2305843009213693952); (1498797955988901#144115188075855872); 
  (5404319552844595#144115188075855872); (4496393867966703#1152921504606846976); 
  (7378697629483821#9223372036854775808); (1152921504606847#2305843009213693952); 
  (335968532201839#9007199254740992); (335968532201839#9007199254740992); 
  (4842270319348757#1152921504606846976); (4842270319348757#1152921504606846976); 
  (4150517416584649#1152921504606846976); (5148515094009951#36028797018963968); 
  (4222575010622577#144115188075855872); (1188950301625811#36028797018963968); 
  (6456360425798343#288230376151711744); (6441948906990757#144115188075855872); 
  (7378697629483821#73786976294838206464); (7378697629483821#18446744073709551616); 
  (1152921504606847#2305843009213693952); (335968532201839#9007199254740992); 
  (7378697629483821#73786976294838206464); (4150517416584649#4611686018427387904); 
  (7378697629483821#36893488147419103232); (5534023222112865#9223372036854775808); 
  (7378697629483821#36893488147419103232); (6254599162492145#288230376151711744); 
  (6456360425798343#144115188075855872); (5274615883576325#144115188075855872); 
  (5418731071652181#1152921504606846976); (4512606826625237#18014398509481984); 
  (7940746862979659#72057594037927936); (4496393867966703#288230376151711744); 
  (5072854620270127#2305843009213693952); (7378697629483821#73786976294838206464); 
  (7378697629483821#73786976294838206464); (4566650022153683#18014398509481984); 
  (8128096607478271#576460752303423488); (5534023222112865#2305843009213693952); 
  (7378697629483821#18446744073709551616); (7378697629483821#576460752303423488); 
  (5368290755825631#18014398509481984); (2334666046828865#72057594037927936); 
  (2694954017018505#144115188075855872); (1961317637719851#4503599627370496); 
  (6730179283142469#144115188075855872); (5382702274633217#72057594037927936); 
  (6946352065256253#144115188075855872); (2680542498210919#288230376151711744); 
  (4496393867966703#576460752303423488); (8128096607478271#144115188075855872)
]%Q.

(** utide/data/ut_constants.npz, sat.ilatfac (162 entries) *)
Definition sat_ilatfac : list (nat) := [
  1; 0; 0; 1; 1; 0; 0; 1; 0; 0; 0; 0; 0; 1; 1; 1; 0; 0; 0; 1; 0; 0; 0; 1; 0; 0; 1; 0; 0; 1; 1; 1; 0; 0; 0; 1; 
  0; 0; 0; 0; 0; 0; 0; 1; 1; 1; 0; 0; 0; 0; 0; 0; 0; 0; 0; 1; 0; 0; 0; 0; 0; 1; 1; 1; 0; 0; 0; 0; 1; 1; 0; 0; 
  0; 0; 0; 0; 0; 1; 0; 0; 0; 0; 0; 1; 1; 1; 1; 0; 0; 0; 0; 0; 0; 1; 1; 0; 0; 0; 0; 0; 0; 1; 1; 2; 0; 2; 2; 0; 
  0; 2; 2; 0; 2; 2; 0; 0; 0; 0; 0; 0; 2; 0; 0; 0; 2; 0; 0; 0; 2; 2; 0; 0; 2; 2; 2; 0; 0; 0; 0; 0; 0; 0; 0; 0; 
  0; 2; 0; 0; 0; 2; 2; 0; 0; 0; 0; 0; 0; 2; 2; 2; 0; 0
]%nat.

(** utide/data/ut_constants.npz, shallow.iconst, 1-based (251 entries) *)
Definition shallow_iconst : list (nat) := [
  26; 26; 27; 27; 30; 30; 30; 31; 31; 32; 32; 33; 33; 33; 36; 36; 36; 36; 37; 37; 37; 38; 44; 44; 44; 41; 41; 
  41; 45; 45; 50; 50; 50; 51; 51; 51; 52; 52; 52; 52; 55; 55; 60; 60; 60; 62; 62; 62; 62; 63; 63; 64; 64; 64; 
  65; 65; 65; 66; 66; 67; 67; 68; 68; 70; 70; 71; 71; 72; 72; 73; 73; 74; 74; 75; 75; 75; 76; 77; 77; 78; 78; 
  78; 78; 79; 79; 81; 81; 81; 80; 80; 80; 80; 82; 83; 83; 83; 84; 84; 85; 85; 86; 86; 87; 87; 88; 88; 89; 90; 
  90; 91; 91; 91; 92; 92; 93; 93; 94; 94; 94; 95; 95; 96; 96; 97; 97; 97; 98; 98; 98; 99; 99; 100; 100; 100; 
  101; 101; 102; 102; 102; 102; 105; 105; 105; 103; 103; 104; 104; 104; 104; 106; 107; 107; 107; 108; 108; 108; 
  110; 110; 111; 111; 112; 112; 112; 113; 113; 114; 114; 114; 109; 109; 109; 115; 116; 116; 116; 117; 117; 117; 
  118; 119; 119; 119; 120; 120; 121; 121; 121; 121; 122; 122; 123; 123; 124; 124; 124; 124; 125; 126; 126; 126; 
  127; 127; 127; 128; 128; 129; 129; 130; 130; 130; 130; 131; 131; 132; 132; 132; 133; 133; 133; 134; 134; 134; 
  135; 135; 136; 136; 136; 137; 137; 138; 139; 139; 139; 140; 140; 141; 141; 141; 141; 142; 142; 143; 143; 143; 
  144; 145; 145; 146; 146; 146; 146
]%nat.

(** utide/data/ut_constants.npz, shallow.iname, 1-based (251 entries) *)
Definition shallow_iname : list (nat) := [
  19; 13; 57; 13; 48; 42; 57; 42; 57; 48; 57; 42; 59; 57; 48; 42; 59; 57; 48; 57; 59; 13; 59; 42; 57; 57; 42; 
  59; 13; 19; 48; 59; 57; 48; 59; 57; 57; 42; 48; 59; 57; 59; 48; 57; 42; 59; 48; 57; 42; 57; 48; 48; 57; 42; 
  57; 59; 48; 57; 42; 42; 13; 48; 13; 42; 21; 57; 13; 48; 21; 57; 19; 57; 21; 48; 42; 57; 42; 48; 57; 48; 57; 
  42; 59; 48; 42; 48; 57; 59; 48; 42; 59; 57; 48; 48; 59; 57; 57; 42; 59; 42; 48; 57; 48; 59; 57; 54; 57; 57; 
  59; 48; 42; 13; 48; 13; 48; 19; 48; 42; 21; 48; 19; 48; 21; 48; 57; 21; 59; 21; 48; 57; 21; 42; 59; 57; 42; 
  48; 42; 48; 59; 57; 48; 57; 59; 48; 42; 48; 42; 59; 57; 48; 48; 57; 42; 48; 59; 42; 48; 57; 48; 59; 42; 57; 
  59; 57; 48; 48; 57; 59; 48; 57; 59; 57; 48; 42; 13; 42; 48; 21; 48; 48; 57; 13; 48; 21; 48; 57; 59; 13; 48; 
  42; 48; 42; 48; 42; 59; 57; 48; 48; 57; 42; 48; 42; 59; 48; 57; 48; 59; 48; 57; 42; 59; 48; 57; 48; 57; 59; 
  48; 42; 21; 48; 42; 21; 48; 21; 48; 57; 21; 48; 42; 48; 48; 42; 57; 48; 57; 48; 42; 57; 59; 48; 57; 48; 57; 
  21; 48; 48; 57; 48; 42; 59; 57
]%nat.

(** utide/data/ut_constants.npz, shallow.coef (251 entries) *)
Definition shallow_coef : list (Q) := [
  (2#1); (-1#1); (1#1); (-1#1); (2#1); (1#1); (-2#1); (2#1); (-1#1); (3#1); (-2#1); (2#1); (1#1); (-2#1); 
  (1#1); (1#1); (1#1); (-2#1); (2#1); (1#1); (-2#1); (2#1); (2#1); (1#1); (-2#1); (1#1); (1#1); (-1#1); (1#1); 
  (1#1); (1#1); (1#1); (-1#1); (1#1); (2#1); (-2#1); (2#1); (1#1); (-1#1); (-1#1); (2#1); (-1#1); (1#1); (1#1); 
  (-1#1); (2#1); (1#1); (-1#1); (-1#1); (2#1); (-1#1); (2#1); (1#1); (-2#1); (1#1); (1#1); (-1#1); (2#1); 
  (-1#1); (1#1); (1#1); (1#1); (1#1); (1#1); (1#1); (1#1); (1#1); (1#1); (1#1); (1#1); (1#1); (1#1); (1#1); 
  (2#1); (1#1); (-1#1); (2#1); (3#1); (-1#1); (1#1); (1#1); (1#1); (-1#1); (1#1); (1#1); (2#1); (1#1); (-1#1); 
  (1#1); (1#1); (1#1); (-1#1); (2#1); (2#1); (1#1); (-1#1); (1#1); (1#1); (1#1); (1#1); (1#1); (1#1); (1#1); 
  (1#1); (1#1); (1#1); (2#1); (1#1); (1#1); (1#1); (1#1); (1#1); (2#1); (1#1); (3#1); (-1#1); (1#1); (1#1); 
  (1#1); (2#1); (1#1); (2#1); (1#1); (1#1); (1#1); (1#1); (1#1); (1#1); (1#1); (2#1); (1#1); (3#1); (1#1); 
  (-1#1); (2#1); (1#1); (2#1); (1#1); (1#1); (-1#1); (3#1); (1#1); (-1#1); (2#1); (1#1); (2#1); (1#1); (1#1); 
  (-1#1); (3#1); (1#1); (1#1); (1#1); (1#1); (1#1); (1#1); (2#1); (1#1); (2#1); (1#1); (1#1); (1#1); (1#1); 
  (2#1); (1#1); (1#1); (1#1); (1#1); (2#1); (2#1); (-1#1); (3#1); (2#1); (1#1); (1#1); (2#1); (1#1); (1#1); 
  (7#2); (2#1); (1#1); (1#1); (3#1); (1#1); (1#1); (1#1); (1#1); (1#1); (2#1); (2#1); (3#1); (1#1); (3#1); 
  (1#1); (1#1); (-1#1); (4#1); (2#1); (1#1); (1#1); (2#1); (1#1); (1#1); (3#1); (1#1); (3#1); (1#1); (1#1); 
  (1#1); (1#1); (1#1); (2#1); (2#1); (2#1); (1#1); (1#1); (2#1); (2#1); (1#1); (3#1); (1#1); (1#1); (4#1); 
  (1#1); (3#1); (1#1); (1#1); (4#1); (1#1); (5#1); (3#1); (1#1); (1#1); (4#1); (1#1); (2#1); (1#1); (1#1); 
  (1#1); (3#1); (2#1); (4#1); (1#1); (1#1); (6#1); (5#1); (1#1); (3#1); (1#1); (1#1); (1#1)
]%Q.
