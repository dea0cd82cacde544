(** * DataOperators: the operators shipped with the package, completions/operators.p and completions/deriv_operators.p

    The two pickled dictionaries, in order: name, dictionaries of the fields, epsilons.  Generated from the files; entries are
    unchanged.  The dictionaries of the fields differ in their indices only, apart from what the functions p_... list; derivs and stripped
    are not stored in operators.p and take their default values 0 and None. *)

From Coq Require Import Ascii String List QArith Qcanon.
From Verif Require Import Base Show ModelIndex ModelField.
Import ListNotations.
Local Open Scope nat_scope.
Local Open Scope string_scope.
Local Open Scope list_scope.

Definition pickled_charges (y b : Q) : charges := [(lit "y", Q2Qc y); (lit "3b", Q2Qc b)].

Definition p_H (i : string) : iargs :=
  mkIargs (lit "H") (AStr (lit i)) (Some (pickled_charges (1 # 2) 0)) false (Some [[1]]) (lit "bose") (Some (lit "H")) 1 0 None.
Definition p_L (i : string) : iargs :=
  mkIargs (lit "L") (AStr (lit i)) (Some (pickled_charges (-1 # 2) 0)) false (Some [[1]; [1]]) (lit "fermi") (Some (lit "L")) 3 0 None.
Definition p_eb (i : string) : iargs :=
  mkIargs (lit "eb") (AStr (lit i)) (Some (pickled_charges 1 0)) false (Some [[1]]) (lit "fermi") (Some (lit "\bar{e}")) 3 0 None.
Definition p_Q (i : string) : iargs :=
  mkIargs (lit "Q") (AStr (lit i)) (Some (pickled_charges (1 # 6) 1)) false (Some [[1]; [1]; [1]]) (lit "fermi") (Some (lit "Q")) 3 0 None.
Definition p_db (i : string) : iargs :=
  mkIargs (lit "db") (AStr (lit i)) (Some (pickled_charges (1 # 3) (-1))) false (Some [[1]; [1]]) (lit "fermi") (Some (lit "\bar{d}")) 3 0 None.
Definition p_Qc (i : string) : iargs :=
  mkIargs ((lit "Q" ++ [dagger])) (AStr (lit i)) (Some (pickled_charges (-1 # 6) (-1))) true (Some [[1]; [1]; [1]]) (lit "fermi") (Some (lit "Q")) 3 0 None.
Definition p_ubc (i : string) : iargs :=
  mkIargs ((lit "ub" ++ [dagger])) (AStr (lit i)) (Some (pickled_charges (2 # 3) 1)) true (Some [[1]; [1]]) (lit "fermi") (Some (lit "\bar{u}")) 3 0 None.
Definition p_Hc (i : string) : iargs :=
  mkIargs ((lit "H" ++ [dagger])) (AStr (lit i)) (Some (pickled_charges (-1 # 2) 0)) true (Some [[1]]) (lit "bose") (Some (lit "H")) 1 0 None.
Definition p_ebc (i : string) : iargs :=
  mkIargs ((lit "eb" ++ [dagger])) (AStr (lit i)) (Some (pickled_charges (-1) 0)) true (Some [[1]]) (lit "fermi") (Some (lit "\bar{e}")) 3 0 None.
Definition p_Lc (i : string) : iargs :=
  mkIargs ((lit "L" ++ [dagger])) (AStr (lit i)) (Some (pickled_charges (1 # 2) 0)) true (Some [[1]; [1]]) (lit "fermi") (Some (lit "L")) 3 0 None.
Definition p_dbc (i : string) : iargs :=
  mkIargs ((lit "db" ++ [dagger])) (AStr (lit i)) (Some (pickled_charges (-1 # 3) 1)) true (Some [[1]; [1]]) (lit "fermi") (Some (lit "\bar{d}")) 3 0 None.
Definition p_ub (i : string) : iargs :=
  mkIargs (lit "ub") (AStr (lit i)) (Some (pickled_charges (-2 # 3) (-1))) false (Some [[1]; [1]]) (lit "fermi") (Some (lit "\bar{u}")) 3 0 None.
Definition p_DL (i : string) : iargs :=
  mkIargs (lit "DL") (AStr (lit i)) (Some (pickled_charges (-1 # 2) 0)) false (Some [[1]; [1]]) (lit "fermi") (Some (lit "(DL)")) 3 1 (Some (mkStripped (lit "L") (lit "10001") [[1]; [1]] (pickled_charges (-1 # 2) 0) (lit "L"))).
Definition p_DH (i : string) : iargs :=
  mkIargs (lit "DH") (AStr (lit i)) (Some (pickled_charges (1 # 2) 0)) false (Some [[1]; [1]; [1]]) (lit "bose") (Some (lit "(DH)")) 1 1 (Some (mkStripped (lit "H") (lit "00001") [[1]] (pickled_charges (1 # 2) 0) (lit "H"))).
Definition p_Deb (i : string) : iargs :=
  mkIargs (lit "Deb") (AStr (lit i)) (Some (pickled_charges 1 0)) false (Some [[1]]) (lit "fermi") (Some (lit "(D\bar{e})")) 3 1 (Some (mkStripped (lit "eb") (lit "10000") [[1]] (pickled_charges 1 0) (lit "\bar{e}"))).
Definition p_Ddb (i : string) : iargs :=
  mkIargs (lit "Ddb") (AStr (lit i)) (Some (pickled_charges (1 # 3) (-1))) false (Some [[1]; [1]]) (lit "fermi") (Some (lit "(D\bar{d})")) 3 1 (Some (mkStripped (lit "db") (lit "10010") [[1]; [1]] (pickled_charges (1 # 3) (-1)) (lit "\bar{d}"))).
Definition p_Dubc (i : string) : iargs :=
  mkIargs ((lit "Dub" ++ [dagger])) (AStr (lit i)) (Some (pickled_charges (2 # 3) 1)) true (Some [[1]; [1]]) (lit "fermi") (Some (lit "(D{\bar{u}^{\dagger}})")) 3 1 (Some (mkStripped (lit "ub") (lit "01100") [[1]; [1]] (pickled_charges (2 # 3) 1) (lit "\bar{u}"))).
Definition p_Debc (i : string) : iargs :=
  mkIargs ((lit "Deb" ++ [dagger])) (AStr (lit i)) (Some (pickled_charges (-1) 0)) true (Some [[1]]) (lit "fermi") (Some (lit "(D{\bar{e}^{\dagger}})")) 3 1 (Some (mkStripped (lit "eb") (lit "01000") [[1]] (pickled_charges (-1) 0) (lit "\bar{e}"))).
Definition p_DDDH (i : string) : iargs :=
  mkIargs (lit "DDDH") (AStr (lit i)) (Some (pickled_charges (1 # 2) 0)) false (Some [[1]; [1]; [1]]) (lit "bose") (Some (lit "(DDDH)")) 1 3 (Some (mkStripped (lit "H") (lit "00001") [[1]] (pickled_charges (1 # 2) 0) (lit "H"))).

Definition pickled := list (string * list iargs * list (list string)).

Definition operators_p : pickled :=
 [("1", [p_H "i0_"; p_H "i1_"; p_L "u0_ i2_ g0_"; p_L "u1_ i3_ g1_"],
   [["-i0_"; "-i2_"]; ["-i3_"; "-i1_"]]);
  ("2", [p_H "i9_"; p_L "u5_ i10_ g5_"; p_L "u6_ i11_ g6_"; p_L "u7_ i12_ g7_"; p_eb "u9_ g9_"],
   [["-i9_"; "-i11_"]; ["-i12_"; "-i10_"]]);
  ("3a", [p_H "i27_"; p_L "u25_ i28_ g25_"; p_L "u26_ i29_ g26_"; p_Q "u28_ c1_ i31_ g28_"; p_db "u30_ -c3_ g30_"],
   [["-i28_"; "-i29_"]; ["-i31_"; "-i27_"]]);
  ("3b", [p_H "i27_"; p_L "u25_ i28_ g25_"; p_L "u26_ i29_ g26_"; p_Q "u27_ c0_ i30_ g27_"; p_db "u29_ -c2_ g29_"],
   [["-i27_"; "-i29_"]; ["-i30_"; "-i28_"]]);
  ("4a", [p_H "i45_"; p_L "u45_ i46_ g45_"; p_L "u46_ i47_ g46_"; p_Qc "d0_ -c12_ i48_ g47_"; p_ubc "d2_ c14_ g49_"],
   [["-i45_"; "-i47_"]; ["-i48_"; "-i46_"]]);
  ("4b", [p_H "i45_"; p_L "u45_ i46_ g45_"; p_L "u46_ i47_ g46_"; p_Qc "d1_ -c13_ i49_ g48_"; p_ubc "d3_ c15_ g50_"],
   [["-i46_"; "-i47_"]; ["-i49_"; "-i45_"]]);
  ("5a", [p_H "i54_"; p_H "i55_"; p_Hc "i56_"; p_L "u49_ i57_ g55_"; p_L "u50_ i58_ g56_"; p_Q "u57_ c19_ i65_ g63_"; p_db "u69_ -c31_ g75_"],
   [["-i54_"; "-i57_"]; ["-i56_"; "-i58_"]; ["-i65_"; "-i55_"]]);
  ("5b", [p_H "i54_"; p_H "i55_"; p_Hc "i56_"; p_L "u49_ i57_ g55_"; p_L "u50_ i58_ g56_"; p_Q "u56_ c18_ i64_ g62_"; p_db "u68_ -c30_ g74_"],
   [["-i54_"; "-i57_"]; ["-i55_"; "-i58_"]; ["-i64_"; "-i56_"]]);
  ("5c", [p_H "i98_"; p_H "i99_"; p_Hc "i100_"; p_L "u111_ i101_ g117_"; p_L "u113_ i103_ g119_"; p_Q "u116_ c67_ i106_ g122_"; p_db "u120_ -c71_ g126_"],
   [["-i98_"; "-i100_"]; ["-i101_"; "-i103_"]; ["-i106_"; "-i99_"]]);
  ("5d", [p_H "i98_"; p_H "i99_"; p_Hc "i100_"; p_L "u111_ i101_ g117_"; p_L "u113_ i103_ g119_"; p_Q "u115_ c66_ i105_ g121_"; p_db "u119_ -c70_ g125_"],
   [["-i98_"; "-i100_"]; ["-i99_"; "-i103_"]; ["-i105_"; "-i101_"]]);
  ("6a", [p_H "i164_"; p_H "i165_"; p_Hc "i166_"; p_L "u171_ i167_ g177_"; p_L "u172_ i168_ g178_"; p_Qc "d7_ -c103_ i175_ g185_"; p_ubc "d19_ c115_ g197_"],
   [["-i164_"; "-i167_"]; ["-i166_"; "-i168_"]; ["-i175_"; "-i165_"]]);
  ("6b", [p_H "i164_"; p_H "i165_"; p_Hc "i166_"; p_L "u171_ i167_ g177_"; p_L "u172_ i168_ g178_"; p_Qc "d6_ -c102_ i174_ g184_"; p_ubc "d18_ c114_ g196_"],
   [["-i164_"; "-i167_"]; ["-i165_"; "-i168_"]; ["-i174_"; "-i166_"]]);
  ("6c", [p_H "i186_"; p_H "i187_"; p_Hc "i188_"; p_L "u178_ i189_ g208_"; p_L "u180_ i191_ g210_"; p_Qc "d30_ -c126_ i193_ g212_"; p_ubc "d34_ c130_ g216_"],
   [["-i186_"; "-i188_"]; ["-i187_"; "-i191_"]; ["-i193_"; "-i189_"]]);
  ("6d", [p_H "i186_"; p_H "i187_"; p_Hc "i188_"; p_L "u178_ i189_ g208_"; p_L "u180_ i191_ g210_"; p_Qc "d31_ -c127_ i194_ g213_"; p_ubc "d35_ c131_ g217_"],
   [["-i186_"; "-i188_"]; ["-i189_"; "-i191_"]; ["-i194_"; "-i187_"]]);
  ("7", [p_H "i219_"; p_H "i220_"; p_H "i221_"; p_L "u190_ i222_ g238_"; p_Q "u191_ c144_ i223_ g239_"; p_Qc "d48_ -c150_ i229_ g245_"; p_ebc "d60_ g257_"],
   [["-i219_"; "-i222_"]; ["-i220_"; "-i223_"]; ["-i229_"; "-i221_"]]);
  ("8", [p_H "i274_"; p_L "u209_ i275_ g299_"; p_db "u210_ -c177_ g300_"; p_ebc "d90_ g301_"; p_ubc "d91_ c178_ g302_"],
   [["-i275_"; "-i274_"]]);
  ("9", [p_L "u211_ i276_ g303_"; p_L "u212_ i277_ g304_"; p_L "u213_ i278_ g305_"; p_L "u214_ i279_ g306_"; p_eb "u216_ g308_"; p_eb "u218_ g310_"],
   [["-i276_"; "-i278_"]; ["-i279_"; "-i277_"]]);
  ("10", [p_L "u286_ i321_ g378_"; p_L "u287_ i322_ g379_"; p_L "u288_ i323_ g380_"; p_Q "u289_ c179_ i324_ g381_"; p_db "u291_ -c181_ g383_"; p_eb "u293_ g385_"],
   [["-i321_"; "-i323_"]; ["-i324_"; "-i322_"]]);
  ("11a", [p_L "u415_ i396_ g507_"; p_L "u416_ i397_ g508_"; p_Q "u417_ c251_ i398_ g509_"; p_Q "u418_ c252_ i399_ g510_"; p_db "u419_ -c253_ g511_"; p_db "u420_ -c254_ g512_"],
   [["-i397_"; "-i396_"]; ["-i399_"; "-i398_"]]);
  ("11b", [p_L "u361_ i366_ g453_"; p_L "u362_ i367_ g454_"; p_Q "u363_ c209_ i368_ g455_"; p_Q "u364_ c210_ i369_ g456_"; p_db "u366_ -c212_ g458_"; p_db "u368_ -c214_ g460_"],
   [["-i366_"; "-i368_"]; ["-i369_"; "-i367_"]]);
  ("12a", [p_L "u511_ i456_ g603_"; p_L "u512_ i457_ g604_"; p_Qc "d92_ -c319_ i458_ g605_"; p_Qc "d93_ -c320_ i459_ g606_"; p_ubc "d95_ c322_ g608_"; p_ubc "d97_ c324_ g610_"],
   [["-i456_"; "-i458_"]; ["-i459_"; "-i457_"]]);
  ("12b", [p_L "u519_ i476_ g639_"; p_L "u520_ i477_ g640_"; p_Qc "d120_ -c347_ i478_ g641_"; p_Qc "d121_ -c348_ i479_ g642_"; p_ubc "d122_ c349_ g643_"; p_ubc "d123_ c350_ g644_"],
   [["-i477_"; "-i476_"]; ["-i479_"; "-i478_"]]);
  ("13", [p_L "u527_ i492_ g663_"; p_L "u528_ i493_ g664_"; p_L "u529_ i494_ g665_"; p_Qc "d136_ -c363_ i495_ g666_"; p_eb "u530_ g668_"; p_ubc "d138_ c365_ g670_"],
   [["-i492_"; "-i494_"]; ["-i495_"; "-i493_"]]);
  ("14a", [p_L "u555_ i520_ g711_"; p_L "u556_ i521_ g712_"; p_Q "u557_ c389_ i522_ g713_"; p_Qc "d156_ -c390_ i523_ g714_"; p_db "u558_ -c391_ g715_"; p_ubc "d157_ c392_ g716_"],
   [["-i521_"; "-i520_"]; ["-i523_"; "-i522_"]]);
  ("14b", [p_L "u545_ i510_ g693_"; p_L "u546_ i511_ g694_"; p_Q "u547_ c375_ i512_ g695_"; p_Qc "d148_ -c376_ i513_ g696_"; p_db "u548_ -c378_ g698_"; p_ubc "d150_ c380_ g700_"],
   [["-i510_"; "-i512_"]; ["-i513_"; "-i511_"]]);
  ("15", [p_L "u581_ i546_ g753_"; p_L "u582_ i547_ g754_"; p_L "u583_ i548_ g755_"; p_Lc "d172_ i549_ g756_"; p_db "u584_ -c419_ g758_"; p_ubc "d174_ c421_ g760_"],
   [["-i546_"; "-i548_"]; ["-i549_"; "-i547_"]]);
  ("16", [p_L "u599_ i564_ g783_"; p_L "u600_ i565_ g784_"; p_db "u601_ -c431_ g785_"; p_eb "u602_ g786_"; p_ebc "d184_ g787_"; p_ubc "d185_ c432_ g788_"],
   [["-i565_"; "-i564_"]]);
  ("17", [p_L "u607_ i568_ g795_"; p_L "u608_ i569_ g796_"; p_db "u609_ -c435_ g797_"; p_db "u610_ -c436_ g798_"; p_dbc "d188_ c437_ g799_"; p_ubc "d189_ c438_ g800_"],
   [["-i569_"; "-i568_"]]);
  ("18", [p_L "u623_ i576_ g819_"; p_L "u624_ i577_ g820_"; p_db "u625_ -c451_ g821_"; p_ub "u626_ -c452_ g822_"; p_ubc "d196_ c453_ g823_"; p_ubc "d197_ c454_ g824_"],
   [["-i577_"; "-i576_"]]);
  ("19", [p_L "u639_ i584_ g843_"; p_Q "u640_ c467_ i585_ g844_"; p_db "u641_ -c468_ g845_"; p_db "u642_ -c469_ g846_"; p_ebc "d204_ g847_"; p_ubc "d205_ c470_ g848_"],
   [["-i585_"; "-i584_"]]);
  ("20", [p_L "u655_ i592_ g867_"; p_Qc "d212_ -c483_ i593_ g868_"; p_db "u656_ -c484_ g869_"; p_ebc "d213_ g870_"; p_ubc "d214_ c485_ g871_"; p_ubc "d215_ c486_ g872_"],
   [["-i593_"; "-i592_"]]);
  ("21a", [p_H "i600_"; p_H "i601_"; p_L "u663_ i602_ g891_"; p_L "u664_ i603_ g892_"; p_L "u665_ i604_ g893_"; p_Q "u671_ c499_ i610_ g899_"; p_eb "u683_ g911_"; p_ub "u695_ -c511_ g923_"],
   [["-i600_"; "-i603_"]; ["-i601_"; "-i604_"]; ["-i610_"; "-i602_"]]);
  ("21b", [p_H "i600_"; p_H "i601_"; p_L "u663_ i602_ g891_"; p_L "u664_ i603_ g892_"; p_L "u665_ i604_ g893_"; p_Q "u672_ c500_ i611_ g900_"; p_eb "u684_ g912_"; p_ub "u696_ -c512_ g924_"],
   [["-i600_"; "-i603_"]; ["-i602_"; "-i604_"]; ["-i611_"; "-i601_"]]);
  ("22a", [p_H "i875_"; p_H "i876_"; p_L "u1098_ i877_ g1326_"; p_L "u1099_ i878_ g1327_"; p_L "u1100_ i879_ g1328_"; p_Lc "d228_ i885_ g1334_"; p_eb "u1106_ g1346_"; p_ebc "d240_ g1358_"],
   [["-i875_"; "-i878_"]; ["-i876_"; "-i879_"]; ["-i885_"; "-i877_"]]);
  ("22b", [p_H "i875_"; p_H "i876_"; p_L "u1098_ i877_ g1326_"; p_L "u1099_ i878_ g1327_"; p_L "u1100_ i879_ g1328_"; p_Lc "d229_ i886_ g1335_"; p_eb "u1107_ g1347_"; p_ebc "d241_ g1359_"],
   [["-i875_"; "-i878_"]; ["-i877_"; "-i879_"]; ["-i886_"; "-i876_"]]);
  ("23a", [p_H "i985_"; p_H "i986_"; p_L "u1188_ i987_ g1500_"; p_L "u1189_ i988_ g1501_"; p_L "u1190_ i989_ g1502_"; p_Qc "d312_ -c709_ i995_ g1508_"; p_dbc "d324_ c721_ g1520_"; p_eb "u1196_ g1532_"],
   [["-i985_"; "-i988_"]; ["-i986_"; "-i989_"]; ["-i995_"; "-i987_"]]);
  ("23b", [p_H "i985_"; p_H "i986_"; p_L "u1188_ i987_ g1500_"; p_L "u1189_ i988_ g1501_"; p_L "u1190_ i989_ g1502_"; p_Qc "d313_ -c710_ i996_ g1509_"; p_dbc "d325_ c722_ g1521_"; p_eb "u1197_ g1533_"],
   [["-i985_"; "-i988_"]; ["-i987_"; "-i989_"]; ["-i996_"; "-i986_"]]);
  ("24a", [p_H "i1095_"; p_Hc "i1096_"; p_L "u1278_ i1097_ g1674_"; p_L "u1279_ i1098_ g1675_"; p_Q "u1282_ c795_ i1101_ g1678_"; p_Q "u1290_ c803_ i1109_ g1686_"; p_db "u1302_ -c815_ g1698_"; p_db "u1314_ -c827_ g1710_"],
   [["-i1096_"; "-i1098_"]; ["-i1095_"; "-i1101_"]; ["-i1109_"; "-i1097_"]]);
  ("24b", [p_H "i1381_"; p_Hc "i1382_"; p_L "u1820_ i1383_ g2216_"; p_L "u1821_ i1384_ g2217_"; p_Q "u1823_ c1297_ i1386_ g2219_"; p_Q "u1825_ c1299_ i1388_ g2221_"; p_db "u1827_ -c1301_ g2223_"; p_db "u1829_ -c1303_ g2225_"],
   [["-i1381_"; "-i1383_"]; ["-i1384_"; "-i1382_"]; ["-i1388_"; "-i1386_"]]);
  ("24c", [p_H "i1095_"; p_Hc "i1096_"; p_L "u1278_ i1097_ g1674_"; p_L "u1279_ i1098_ g1675_"; p_Q "u1284_ c797_ i1103_ g1680_"; p_Q "u1294_ c807_ i1113_ g1690_"; p_db "u1306_ -c819_ g1702_"; p_db "u1318_ -c831_ g1714_"],
   [["-i1097_"; "-i1098_"]; ["-i1095_"; "-i1103_"]; ["-i1113_"; "-i1096_"]]);
  ("24d", [p_H "i1095_"; p_Hc "i1096_"; p_L "u1278_ i1097_ g1674_"; p_L "u1279_ i1098_ g1675_"; p_Q "u1280_ c793_ i1099_ g1676_"; p_Q "u1286_ c799_ i1105_ g1682_"; p_db "u1298_ -c811_ g1694_"; p_db "u1310_ -c823_ g1706_"],
   [["-i1095_"; "-i1098_"]; ["-i1096_"; "-i1099_"]; ["-i1105_"; "-i1097_"]]);
  ("24e", [p_H "i1557_"; p_Hc "i1558_"; p_L "u2052_ i1559_ g2448_"; p_L "u2053_ i1560_ g2449_"; p_Q "u2054_ c1475_ i1561_ g2450_"; p_Q "u2055_ c1476_ i1562_ g2451_"; p_db "u2056_ -c1477_ g2452_"; p_db "u2057_ -c1478_ g2453_"],
   [["-i1558_"; "-i1557_"]; ["-i1560_"; "-i1559_"]; ["-i1562_"; "-i1561_"]]);
  ("24f", [p_H "i1515_"; p_Hc "i1516_"; p_L "u1998_ i1517_ g2394_"; p_L "u1999_ i1518_ g2395_"; p_Q "u2000_ c1433_ i1519_ g2396_"; p_Q "u2001_ c1434_ i1520_ g2397_"; p_db "u2003_ -c1436_ g2399_"; p_db "u2005_ -c1438_ g2401_"],
   [["-i1516_"; "-i1515_"]; ["-i1517_"; "-i1519_"]; ["-i1520_"; "-i1518_"]]);
  ("25a", [p_H "i1931_"; p_H "i1932_"; p_L "u2690_ i1933_ g3086_"; p_L "u2691_ i1934_ g3087_"; p_Q "u2693_ c2047_ i1936_ g3089_"; p_Q "u2695_ c2049_ i1938_ g3091_"; p_db "u2697_ -c2051_ g3093_"; p_ub "u2699_ -c2053_ g3095_"],
   [["-i1931_"; "-i1933_"]; ["-i1934_"; "-i1932_"]; ["-i1938_"; "-i1936_"]]);
  ("25b", [p_H "i1645_"; p_H "i1646_"; p_L "u2148_ i1647_ g2544_"; p_L "u2149_ i1648_ g2545_"; p_Q "u2154_ c1547_ i1653_ g2550_"; p_Q "u2164_ c1557_ i1663_ g2560_"; p_db "u2176_ -c1569_ g2572_"; p_ub "u2188_ -c1581_ g2584_"],
   [["-i1647_"; "-i1648_"]; ["-i1645_"; "-i1653_"]; ["-i1663_"; "-i1646_"]]);
  ("25c", [p_H "i1645_"; p_H "i1646_"; p_L "u2148_ i1647_ g2544_"; p_L "u2149_ i1648_ g2545_"; p_Q "u2150_ c1543_ i1649_ g2546_"; p_Q "u2156_ c1549_ i1655_ g2552_"; p_db "u2168_ -c1561_ g2564_"; p_ub "u2180_ -c1573_ g2576_"],
   [["-i1645_"; "-i1648_"]; ["-i1646_"; "-i1649_"]; ["-i1655_"; "-i1647_"]]);
  ("26a", [p_H "i2195_"; p_H "i2196_"; p_L "u3018_ i2197_ g3414_"; p_L "u3019_ i2198_ g3415_"; p_Lc "d396_ i2199_ g3416_"; p_Q "u3021_ c2294_ i2206_ g3423_"; p_db "u3033_ -c2306_ g3435_"; p_ebc "d403_ g3447_"],
   [["-i2195_"; "-i2198_"]; ["-i2197_"; "-i2199_"]; ["-i2206_"; "-i2196_"]]);
  ("26b", [p_H "i2250_"; p_H "i2251_"; p_L "u3081_ i2252_ g3519_"; p_L "u3082_ i2253_ g3520_"; p_Lc "d438_ i2255_ g3522_"; p_Q "u3084_ c2349_ i2257_ g3524_"; p_db "u3086_ -c2351_ g3526_"; p_ebc "d440_ g3528_"],
   [["-i2250_"; "-i2252_"]; ["-i2253_"; "-i2251_"]; ["-i2257_"; "-i2255_"]]);
  ("26c", [p_H "i2195_"; p_H "i2196_"; p_L "u3018_ i2197_ g3414_"; p_L "u3019_ i2198_ g3415_"; p_Lc "d400_ i2203_ g3420_"; p_Q "u3028_ c2301_ i2213_ g3430_"; p_db "u3040_ -c2313_ g3442_"; p_ebc "d410_ g3454_"],
   [["-i2197_"; "-i2198_"]; ["-i2195_"; "-i2203_"]; ["-i2213_"; "-i2196_"]]);
  ("26d", [p_H "i2195_"; p_H "i2196_"; p_L "u3018_ i2197_ g3414_"; p_L "u3019_ i2198_ g3415_"; p_Lc "d396_ i2199_ g3416_"; p_Q "u3020_ c2293_ i2205_ g3422_"; p_db "u3032_ -c2305_ g3434_"; p_ebc "d402_ g3446_"],
   [["-i2195_"; "-i2198_"]; ["-i2196_"; "-i2199_"]; ["-i2205_"; "-i2197_"]]);
  ("27a", [p_H "i2305_"; p_H "i2306_"; p_L "u3126_ i2307_ g3588_"; p_L "u3127_ i2308_ g3589_"; p_Q "u3128_ c2377_ i2309_ g3590_"; p_Qc "d463_ -c2384_ i2316_ g3597_"; p_db "u3135_ -c2396_ g3609_"; p_dbc "d475_ c2408_ g3621_"],
   [["-i2305_"; "-i2308_"]; ["-i2307_"; "-i2309_"]; ["-i2316_"; "-i2306_"]]);
  ("27b", [p_H "i2415_"; p_H "i2416_"; p_L "u3224_ i2417_ g3798_"; p_L "u3225_ i2418_ g3799_"; p_Q "u3227_ c2573_ i2420_ g3801_"; p_Qc "d574_ -c2575_ i2422_ g3803_"; p_db "u3229_ -c2577_ g3805_"; p_dbc "d576_ c2579_ g3807_"],
   [["-i2415_"; "-i2417_"]; ["-i2418_"; "-i2416_"]; ["-i2422_"; "-i2420_"]]);
  ("27c", [p_H "i2305_"; p_H "i2306_"; p_L "u3126_ i2307_ g3588_"; p_L "u3127_ i2308_ g3589_"; p_Q "u3132_ c2381_ i2313_ g3594_"; p_Qc "d470_ -c2391_ i2323_ g3604_"; p_db "u3142_ -c2403_ g3616_"; p_dbc "d482_ c2415_ g3628_"],
   [["-i2307_"; "-i2308_"]; ["-i2305_"; "-i2313_"]; ["-i2323_"; "-i2306_"]]);
  ("27d", [p_H "i2305_"; p_H "i2306_"; p_L "u3126_ i2307_ g3588_"; p_L "u3127_ i2308_ g3589_"; p_Q "u3128_ c2377_ i2309_ g3590_"; p_Qc "d462_ -c2383_ i2315_ g3596_"; p_db "u3134_ -c2395_ g3608_"; p_dbc "d474_ c2407_ g3620_"],
   [["-i2305_"; "-i2308_"]; ["-i2306_"; "-i2309_"]; ["-i2315_"; "-i2307_"]]);
  ("28a", [p_H "i2525_"; p_Hc "i2526_"; p_L "u3306_ i2527_ g3936_"; p_L "u3307_ i2528_ g3937_"; p_Q "u3310_ c2679_ i2531_ g3940_"; p_Qc "d634_ -c2687_ i2539_ g3948_"; p_db "u3318_ -c2699_ g3960_"; p_ubc "d646_ c2711_ g3972_"],
   [["-i2526_"; "-i2528_"]; ["-i2525_"; "-i2531_"]; ["-i2539_"; "-i2527_"]]);
  ("28b", [p_H "i2635_"; p_Hc "i2636_"; p_L "u3404_ i2637_ g4146_"; p_L "u3405_ i2638_ g4147_"; p_Q "u3407_ c2873_ i2640_ g4149_"; p_Qc "d742_ -c2875_ i2642_ g4151_"; p_db "u3409_ -c2877_ g4153_"; p_ubc "d744_ c2879_ g4155_"],
   [["-i2635_"; "-i2637_"]; ["-i2638_"; "-i2636_"]; ["-i2642_"; "-i2640_"]]);
  ("28c", [p_H "i2525_"; p_Hc "i2526_"; p_L "u3306_ i2527_ g3936_"; p_L "u3307_ i2528_ g3937_"; p_Q "u3310_ c2679_ i2531_ g3940_"; p_Qc "d635_ -c2688_ i2540_ g3949_"; p_db "u3319_ -c2700_ g3961_"; p_ubc "d647_ c2712_ g3973_"],
   [["-i2526_"; "-i2528_"]; ["-i2527_"; "-i2531_"]; ["-i2540_"; "-i2525_"]]);
  ("28d", [p_H "i2525_"; p_Hc "i2526_"; p_L "u3306_ i2527_ g3936_"; p_L "u3307_ i2528_ g3937_"; p_Q "u3312_ c2681_ i2533_ g3942_"; p_Qc "d638_ -c2691_ i2543_ g3952_"; p_db "u3322_ -c2703_ g3964_"; p_ubc "d650_ c2715_ g3976_"],
   [["-i2527_"; "-i2528_"]; ["-i2525_"; "-i2533_"]; ["-i2543_"; "-i2526_"]]);
  ("28e", [p_H "i2525_"; p_Hc "i2526_"; p_L "u3306_ i2527_ g3936_"; p_L "u3307_ i2528_ g3937_"; p_Q "u3308_ c2677_ i2529_ g3938_"; p_Qc "d631_ -c2684_ i2536_ g3945_"; p_db "u3315_ -c2696_ g3957_"; p_ubc "d643_ c2708_ g3969_"],
   [["-i2525_"; "-i2528_"]; ["-i2527_"; "-i2529_"]; ["-i2536_"; "-i2526_"]]);
  ("28f", [p_H "i2525_"; p_Hc "i2526_"; p_L "u3306_ i2527_ g3936_"; p_L "u3307_ i2528_ g3937_"; p_Q "u3308_ c2677_ i2529_ g3938_"; p_Qc "d630_ -c2683_ i2535_ g3944_"; p_db "u3314_ -c2695_ g3956_"; p_ubc "d642_ c2707_ g3968_"],
   [["-i2525_"; "-i2528_"]; ["-i2526_"; "-i2529_"]; ["-i2535_"; "-i2527_"]]);
  ("28g", [p_H "i2525_"; p_Hc "i2526_"; p_L "u3306_ i2527_ g3936_"; p_L "u3307_ i2528_ g3937_"; p_Q "u3312_ c2681_ i2533_ g3942_"; p_Qc "d639_ -c2692_ i2544_ g3953_"; p_db "u3323_ -c2704_ g3965_"; p_ubc "d651_ c2716_ g3977_"],
   [["-i2527_"; "-i2528_"]; ["-i2526_"; "-i2533_"]; ["-i2544_"; "-i2525_"]]);
  ("28h", [p_H "i2707_"; p_Hc "i2708_"; p_L "u3460_ i2709_ g4242_"; p_L "u3461_ i2710_ g4243_"; p_Q "u3462_ c2947_ i2711_ g4244_"; p_Qc "d782_ -c2948_ i2712_ g4245_"; p_db "u3463_ -c2949_ g4246_"; p_ubc "d783_ c2950_ g4247_"],
   [["-i2708_"; "-i2707_"]; ["-i2710_"; "-i2709_"]; ["-i2712_"; "-i2711_"]]);
  ("28i", [p_H "i2693_"; p_Hc "i2694_"; p_L "u3450_ i2695_ g4224_"; p_L "u3451_ i2696_ g4225_"; p_Q "u3452_ c2933_ i2697_ g4226_"; p_Qc "d774_ -c2934_ i2698_ g4227_"; p_db "u3453_ -c2936_ g4229_"; p_ubc "d776_ c2938_ g4231_"],
   [["-i2694_"; "-i2693_"]; ["-i2695_"; "-i2697_"]; ["-i2698_"; "-i2696_"]]);
  ("29a", [p_H "i2855_"; p_H "i2856_"; p_L "u3584_ i2857_ g4494_"; p_L "u3585_ i2858_ g4495_"; p_Q "u3587_ c3173_ i2860_ g4497_"; p_Qc "d910_ -c3175_ i2862_ g4499_"; p_ub "u3589_ -c3177_ g4501_"; p_ubc "d912_ c3179_ g4503_"],
   [["-i2855_"; "-i2857_"]; ["-i2858_"; "-i2856_"]; ["-i2862_"; "-i2860_"]]);
  ("29b", [p_H "i2745_"; p_H "i2746_"; p_L "u3486_ i2747_ g4284_"; p_L "u3487_ i2748_ g4285_"; p_Q "u3488_ c2977_ i2749_ g4286_"; p_Qc "d799_ -c2984_ i2756_ g4293_"; p_ub "u3495_ -c2996_ g4305_"; p_ubc "d811_ c3008_ g4317_"],
   [["-i2745_"; "-i2748_"]; ["-i2747_"; "-i2749_"]; ["-i2756_"; "-i2746_"]]);
  ("29c", [p_H "i2745_"; p_H "i2746_"; p_L "u3486_ i2747_ g4284_"; p_L "u3487_ i2748_ g4285_"; p_Q "u3488_ c2977_ i2749_ g4286_"; p_Qc "d798_ -c2983_ i2755_ g4292_"; p_ub "u3494_ -c2995_ g4304_"; p_ubc "d810_ c3007_ g4316_"],
   [["-i2745_"; "-i2748_"]; ["-i2746_"; "-i2749_"]; ["-i2755_"; "-i2747_"]]);
  ("29d", [p_H "i2745_"; p_H "i2746_"; p_L "u3486_ i2747_ g4284_"; p_L "u3487_ i2748_ g4285_"; p_Q "u3492_ c2981_ i2753_ g4290_"; p_Qc "d806_ -c2991_ i2763_ g4300_"; p_ub "u3502_ -c3003_ g4312_"; p_ubc "d818_ c3015_ g4324_"],
   [["-i2747_"; "-i2748_"]; ["-i2745_"; "-i2753_"]; ["-i2763_"; "-i2746_"]]);
  ("30a", [p_H "i2965_"; p_H "i2966_"; p_L "u3666_ i2967_ g4632_"; p_L "u3667_ i2968_ g4633_"; p_Lc "d966_ i2969_ g4634_"; p_Qc "d973_ -c3278_ i2976_ g4641_"; p_ebc "d985_ g4653_"; p_ubc "d997_ c3290_ g4665_"],
   [["-i2965_"; "-i2968_"]; ["-i2967_"; "-i2969_"]; ["-i2976_"; "-i2966_"]]);
  ("30b", [p_H "i3031_"; p_H "i3032_"; p_L "u3676_ i3033_ g4754_"; p_L "u3677_ i3034_ g4755_"; p_Lc "d1078_ i3036_ g4757_"; p_Qc "d1080_ -c3341_ i3038_ g4759_"; p_ebc "d1082_ g4761_"; p_ubc "d1084_ c3343_ g4763_"],
   [["-i3031_"; "-i3033_"]; ["-i3034_"; "-i3032_"]; ["-i3038_"; "-i3036_"]]);
  ("30c", [p_H "i2965_"; p_H "i2966_"; p_L "u3666_ i2967_ g4632_"; p_L "u3667_ i2968_ g4633_"; p_Lc "d966_ i2969_ g4634_"; p_Qc "d972_ -c3277_ i2975_ g4640_"; p_ebc "d984_ g4652_"; p_ubc "d996_ c3289_ g4664_"],
   [["-i2965_"; "-i2968_"]; ["-i2966_"; "-i2969_"]; ["-i2975_"; "-i2967_"]]);
  ("30d", [p_H "i2965_"; p_H "i2966_"; p_L "u3666_ i2967_ g4632_"; p_L "u3667_ i2968_ g4633_"; p_Lc "d970_ i2973_ g4638_"; p_Qc "d980_ -c3285_ i2983_ g4648_"; p_ebc "d992_ g4660_"; p_ubc "d1004_ c3297_ g4672_"],
   [["-i2967_"; "-i2968_"]; ["-i2965_"; "-i2973_"]; ["-i2983_"; "-i2966_"]]);
  ("31a", [p_H "i3075_"; p_H "i3076_"; p_L "u3690_ i3077_ g4806_"; p_L "u3691_ i3078_ g4807_"; p_Qc "d1116_ -c3361_ i3079_ g4808_"; p_Qc "d1122_ -c3367_ i3085_ g4814_"; p_dbc "d1134_ c3379_ g4826_"; p_ubc "d1146_ c3391_ g4838_"],
   [["-i3075_"; "-i3078_"]; ["-i3076_"; "-i3079_"]; ["-i3085_"; "-i3077_"]]);
  ("31b", [p_H "i3207_"; p_H "i3208_"; p_L "u3710_ i3209_ g5050_"; p_L "u3711_ i3210_ g5051_"; p_Qc "d1340_ -c3585_ i3212_ g5053_"; p_Qc "d1342_ -c3587_ i3214_ g5055_"; p_dbc "d1344_ c3589_ g5057_"; p_ubc "d1346_ c3591_ g5059_"],
   [["-i3207_"; "-i3209_"]; ["-i3210_"; "-i3208_"]; ["-i3214_"; "-i3212_"]]);
  ("31c", [p_H "i3075_"; p_H "i3076_"; p_L "u3690_ i3077_ g4806_"; p_L "u3691_ i3078_ g4807_"; p_Qc "d1120_ -c3365_ i3083_ g4812_"; p_Qc "d1130_ -c3375_ i3093_ g4822_"; p_dbc "d1142_ c3387_ g4834_"; p_ubc "d1154_ c3399_ g4846_"],
   [["-i3077_"; "-i3078_"]; ["-i3075_"; "-i3083_"]; ["-i3093_"; "-i3076_"]]);
  ("32a", [p_H "i3295_"; p_Hc "i3296_"; p_L "u3738_ i3297_ g5154_"; p_L "u3739_ i3298_ g5155_"; p_Qc "d1418_ -c3663_ i3301_ g5158_"; p_Qc "d1426_ -c3671_ i3309_ g5166_"; p_ubc "d1438_ c3683_ g5178_"; p_ubc "d1450_ c3695_ g5190_"],
   [["-i3296_"; "-i3298_"]; ["-i3295_"; "-i3301_"]; ["-i3309_"; "-i3297_"]]);
  ("32b", [p_H "i3427_"; p_Hc "i3428_"; p_L "u3758_ i3429_ g5398_"; p_L "u3759_ i3430_ g5399_"; p_Qc "d1640_ -c3885_ i3432_ g5401_"; p_Qc "d1642_ -c3887_ i3434_ g5403_"; p_ubc "d1644_ c3889_ g5405_"; p_ubc "d1646_ c3891_ g5407_"],
   [["-i3427_"; "-i3429_"]; ["-i3430_"; "-i3428_"]; ["-i3434_"; "-i3432_"]]);
  ("32c", [p_H "i3295_"; p_Hc "i3296_"; p_L "u3738_ i3297_ g5154_"; p_L "u3739_ i3298_ g5155_"; p_Qc "d1416_ -c3661_ i3299_ g5156_"; p_Qc "d1422_ -c3667_ i3305_ g5162_"; p_ubc "d1434_ c3679_ g5174_"; p_ubc "d1446_ c3691_ g5186_"],
   [["-i3295_"; "-i3298_"]; ["-i3296_"; "-i3299_"]; ["-i3305_"; "-i3297_"]]);
  ("32d", [p_H "i3295_"; p_Hc "i3296_"; p_L "u3738_ i3297_ g5154_"; p_L "u3739_ i3298_ g5155_"; p_Qc "d1420_ -c3665_ i3303_ g5160_"; p_Qc "d1430_ -c3675_ i3313_ g5170_"; p_ubc "d1442_ c3687_ g5182_"; p_ubc "d1454_ c3699_ g5194_"],
   [["-i3297_"; "-i3298_"]; ["-i3295_"; "-i3303_"]; ["-i3313_"; "-i3296_"]]);
  ("32e", [p_H "i3463_"; p_Hc "i3464_"; p_L "u3770_ i3465_ g5442_"; p_L "u3771_ i3466_ g5443_"; p_Qc "d1672_ -c3917_ i3467_ g5444_"; p_Qc "d1673_ -c3918_ i3468_ g5445_"; p_ubc "d1675_ c3920_ g5447_"; p_ubc "d1677_ c3922_ g5449_"],
   [["-i3464_"; "-i3463_"]; ["-i3465_"; "-i3467_"]; ["-i3468_"; "-i3466_"]]);
  ("32f", [p_H "i3491_"; p_Hc "i3492_"; p_L "u3778_ i3493_ g5478_"; p_L "u3779_ i3494_ g5479_"; p_Qc "d1700_ -c3945_ i3495_ g5480_"; p_Qc "d1701_ -c3946_ i3496_ g5481_"; p_ubc "d1702_ c3947_ g5482_"; p_ubc "d1703_ c3948_ g5483_"],
   [["-i3492_"; "-i3491_"]; ["-i3494_"; "-i3493_"]; ["-i3496_"; "-i3495_"]]);
  ("33", [p_H "i3515_"; p_H "i3516_"; p_L "u3786_ i3517_ g5502_"; p_L "u3787_ i3518_ g5503_"; p_eb "u3789_ g5505_"; p_eb "u3791_ g5507_"; p_ebc "d1716_ g5509_"; p_ebc "d1718_ g5511_"],
   [["-i3515_"; "-i3517_"]; ["-i3518_"; "-i3516_"]]);
  ("34", [p_H "i3533_"; p_H "i3534_"; p_L "u3808_ i3535_ g5536_"; p_Q "u3809_ c3961_ i3536_ g5537_"; p_db "u3811_ -c3963_ g5539_"; p_eb "u3813_ g5541_"; p_ebc "d1728_ g5543_"; p_ebc "d1730_ g5545_"],
   [["-i3533_"; "-i3535_"]; ["-i3536_"; "-i3534_"]]);
  ("35", [p_H "i3551_"; p_H "i3552_"; p_L "u3830_ i3553_ g5570_"; p_Qc "d1740_ -c3973_ i3554_ g5571_"; p_eb "u3831_ g5573_"; p_ebc "d1742_ g5575_"; p_ebc "d1744_ g5577_"; p_ubc "d1746_ c3975_ g5579_"],
   [["-i3551_"; "-i3553_"]; ["-i3554_"; "-i3552_"]]);
  ("36", [p_H "i3569_"; p_H "i3570_"; p_Q "u3840_ c3985_ i3571_ g5604_"; p_Q "u3841_ c3986_ i3572_ g5605_"; p_db "u3843_ -c3988_ g5607_"; p_db "u3845_ -c3990_ g5609_"; p_ebc "d1764_ g5611_"; p_ebc "d1766_ g5613_"],
   [["-i3569_"; "-i3571_"]; ["-i3572_"; "-i3570_"]]);
  ("37", [p_H "i3605_"; p_H "i3606_"; p_Q "u3884_ c4029_ i3607_ g5672_"; p_Qc "d1788_ -c4030_ i3608_ g5673_"; p_db "u3885_ -c4032_ g5675_"; p_ebc "d1790_ g5677_"; p_ebc "d1792_ g5679_"; p_ubc "d1794_ c4034_ g5681_"],
   [["-i3605_"; "-i3607_"]; ["-i3608_"; "-i3606_"]]);
  ("38", [p_H "i3641_"; p_H "i3642_"; p_Qc "d1836_ -c4073_ i3643_ g5740_"; p_Qc "d1837_ -c4074_ i3644_ g5741_"; p_ebc "d1839_ g5743_"; p_ebc "d1841_ g5745_"; p_ubc "d1843_ c4076_ g5747_"; p_ubc "d1845_ c4078_ g5749_"],
   [["-i3641_"; "-i3643_"]; ["-i3644_"; "-i3642_"]]);
  ("39a", [p_H "i3731_"; p_H "i3732_"; p_L "u3904_ i3733_ g5910_"; p_L "u3905_ i3734_ g5911_"; p_L "u3906_ i3735_ g5912_"; p_L "u3907_ i3736_ g5913_"; p_Lc "d2006_ i3760_ g5937_"; p_Lc "d2150_ i3904_ g6081_"],
   [["-i3731_"; "-i3735_"]; ["-i3732_"; "-i3736_"]; ["-i3733_"; "-i3760_"]; ["-i3904_"; "-i3734_"]]);
  ("39b", [p_H "i3731_"; p_H "i3732_"; p_L "u3904_ i3733_ g5910_"; p_L "u3905_ i3734_ g5911_"; p_L "u3906_ i3735_ g5912_"; p_L "u3919_ i3748_ g5925_"; p_Lc "d2082_ i3836_ g6013_"; p_Lc "d2302_ i4056_ g6233_"],
   [["-i3733_"; "-i3735_"]; ["-i3734_"; "-i3748_"]; ["-i3731_"; "-i3836_"]; ["-i4056_"; "-i3732_"]]);
  ("39c", [p_H "i3731_"; p_H "i3732_"; p_L "u3904_ i3733_ g5910_"; p_L "u3905_ i3734_ g5911_"; p_L "u3906_ i3735_ g5912_"; p_L "u3907_ i3736_ g5913_"; p_Lc "d2008_ i3762_ g5939_"; p_Lc "d2154_ i3908_ g6085_"],
   [["-i3731_"; "-i3735_"]; ["-i3733_"; "-i3736_"]; ["-i3732_"; "-i3762_"]; ["-i3908_"; "-i3734_"]]);
  ("39d", [p_H "i4374_"; p_H "i4375_"; p_L "u3965_ i4376_ g6547_"; p_L "u3966_ i4377_ g6548_"; p_L "u3967_ i4378_ g6549_"; p_L "u3973_ i4384_ g6555_"; p_Lc "d2582_ i4396_ g6567_"; p_Lc "d2594_ i4408_ g6579_"],
   [["-i4374_"; "-i4377_"]; ["-i4375_"; "-i4378_"]; ["-i4384_"; "-i4376_"]; ["-i4408_"; "-i4396_"]]);
  ("40a", [p_H "i5469_"; p_H "i5470_"; p_L "u4188_ i5471_ g7592_"; p_L "u4189_ i5472_ g7593_"; p_L "u4190_ i5473_ g7594_"; p_Lc "d3404_ i5474_ g7595_"; p_Q "u4193_ c4185_ i5500_ g7621_"; p_Qc "d3432_ -c4331_ i5646_ g7767_"],
   [["-i5469_"; "-i5473_"]; ["-i5471_"; "-i5474_"]; ["-i5470_"; "-i5500_"]; ["-i5646_"; "-i5472_"]]);
  ("40b", [p_H "i6112_"; p_H "i6113_"; p_L "u4399_ i6114_ g8229_"; p_L "u4400_ i6115_ g8230_"; p_L "u4401_ i6116_ g8231_"; p_Lc "d3830_ i6122_ g8237_"; p_Q "u4407_ c4759_ i6134_ g8249_"; p_Qc "d3842_ -c4771_ i6146_ g8261_"],
   [["-i6112_"; "-i6115_"]; ["-i6113_"; "-i6116_"]; ["-i6122_"; "-i6114_"]; ["-i6146_"; "-i6134_"]]);
  ("40c", [p_H "i6054_"; p_H "i6055_"; p_L "u4379_ i6056_ g8173_"; p_L "u4380_ i6057_ g8174_"; p_L "u4381_ i6058_ g8175_"; p_Lc "d3794_ i6064_ g8181_"; p_Q "u4387_ c4723_ i6076_ g8193_"; p_Qc "d3807_ -c4736_ i6089_ g8206_"],
   [["-i6054_"; "-i6057_"]; ["-i6055_"; "-i6058_"]; ["-i6064_"; "-i6076_"]; ["-i6089_"; "-i6056_"]]);
  ("40d", [p_H "i5469_"; p_H "i5470_"; p_L "u4188_ i5471_ g7592_"; p_L "u4189_ i5472_ g7593_"; p_L "u4190_ i5473_ g7594_"; p_Lc "d3416_ i5486_ g7607_"; p_Q "u4267_ c4259_ i5574_ g7695_"; p_Qc "d3580_ -c4479_ i5794_ g7915_"],
   [["-i5471_"; "-i5473_"]; ["-i5472_"; "-i5486_"]; ["-i5469_"; "-i5574_"]; ["-i5794_"; "-i5470_"]]);
  ("40e", [p_H "i5469_"; p_H "i5470_"; p_L "u4188_ i5471_ g7592_"; p_L "u4189_ i5472_ g7593_"; p_L "u4190_ i5473_ g7594_"; p_Lc "d3404_ i5474_ g7595_"; p_Q "u4193_ c4185_ i5500_ g7621_"; p_Qc "d3433_ -c4332_ i5647_ g7768_"],
   [["-i5469_"; "-i5473_"]; ["-i5471_"; "-i5474_"]; ["-i5472_"; "-i5500_"]; ["-i5647_"; "-i5470_"]]);
  ("40f", [p_H "i5469_"; p_H "i5470_"; p_L "u4188_ i5471_ g7592_"; p_L "u4189_ i5472_ g7593_"; p_L "u4190_ i5473_ g7594_"; p_Lc "d3416_ i5486_ g7607_"; p_Q "u4263_ c4255_ i5570_ g7691_"; p_Qc "d3572_ -c4471_ i5786_ g7907_"],
   [["-i5471_"; "-i5473_"]; ["-i5469_"; "-i5486_"]; ["-i5470_"; "-i5570_"]; ["-i5786_"; "-i5472_"]]);
  ("40g", [p_H "i5469_"; p_H "i5470_"; p_L "u4188_ i5471_ g7592_"; p_L "u4189_ i5472_ g7593_"; p_L "u4190_ i5473_ g7594_"; p_Lc "d3404_ i5474_ g7595_"; p_Q "u4191_ c4183_ i5498_ g7619_"; p_Qc "d3428_ -c4327_ i5642_ g7763_"],
   [["-i5469_"; "-i5473_"]; ["-i5470_"; "-i5474_"]; ["-i5471_"; "-i5498_"]; ["-i5642_"; "-i5472_"]]);
  ("40h", [p_H "i5469_"; p_H "i5470_"; p_L "u4188_ i5471_ g7592_"; p_L "u4189_ i5472_ g7593_"; p_L "u4190_ i5473_ g7594_"; p_Lc "d3416_ i5486_ g7607_"; p_Q "u4263_ c4255_ i5570_ g7691_"; p_Qc "d3573_ -c4472_ i5787_ g7908_"],
   [["-i5471_"; "-i5473_"]; ["-i5469_"; "-i5486_"]; ["-i5472_"; "-i5570_"]; ["-i5787_"; "-i5470_"]]);
  ("40i", [p_H "i6054_"; p_H "i6055_"; p_L "u4379_ i6056_ g8173_"; p_L "u4380_ i6057_ g8174_"; p_L "u4381_ i6058_ g8175_"; p_Lc "d3794_ i6064_ g8181_"; p_Q "u4387_ c4723_ i6076_ g8193_"; p_Qc "d3806_ -c4735_ i6088_ g8205_"],
   [["-i6054_"; "-i6057_"]; ["-i6055_"; "-i6058_"]; ["-i6056_"; "-i6076_"]; ["-i6088_"; "-i6064_"]]);
  ("40j", [p_H "i6054_"; p_H "i6055_"; p_L "u4379_ i6056_ g8173_"; p_L "u4380_ i6057_ g8174_"; p_L "u4381_ i6058_ g8175_"; p_Lc "d3795_ i6065_ g8182_"; p_Q "u4388_ c4724_ i6077_ g8194_"; p_Qc "d3808_ -c4737_ i6090_ g8207_"],
   [["-i6054_"; "-i6057_"]; ["-i6056_"; "-i6058_"]; ["-i6055_"; "-i6077_"]; ["-i6090_"; "-i6065_"]]);
  ("40k", [p_H "i6054_"; p_H "i6055_"; p_L "u4379_ i6056_ g8173_"; p_L "u4380_ i6057_ g8174_"; p_L "u4381_ i6058_ g8175_"; p_Lc "d3795_ i6065_ g8182_"; p_Q "u4388_ c4724_ i6077_ g8194_"; p_Qc "d3809_ -c4738_ i6091_ g8208_"],
   [["-i6054_"; "-i6057_"]; ["-i6056_"; "-i6058_"]; ["-i6065_"; "-i6077_"]; ["-i6091_"; "-i6055_"]]);
  ("40l", [p_H "i6112_"; p_H "i6113_"; p_L "u4399_ i6114_ g8229_"; p_L "u4400_ i6115_ g8230_"; p_L "u4401_ i6116_ g8231_"; p_Lc "d3831_ i6123_ g8238_"; p_Q "u4408_ c4760_ i6135_ g8250_"; p_Qc "d3843_ -c4772_ i6147_ g8262_"],
   [["-i6112_"; "-i6115_"]; ["-i6114_"; "-i6116_"]; ["-i6123_"; "-i6113_"]; ["-i6147_"; "-i6135_"]]);
  ("41a", [p_H "i7207_"; p_H "i7208_"; p_L "u4802_ i7209_ g9274_"; p_L "u4803_ i7210_ g9275_"; p_L "u4804_ i7211_ g9276_"; p_Lc "d4472_ i7217_ g9282_"; p_db "u4810_ -c5581_ g9294_"; p_dbc "d4484_ c5593_ g9306_"],
   [["-i7207_"; "-i7210_"]; ["-i7208_"; "-i7211_"]; ["-i7217_"; "-i7209_"]]);
  ("41b", [p_H "i7207_"; p_H "i7208_"; p_L "u4802_ i7209_ g9274_"; p_L "u4803_ i7210_ g9275_"; p_L "u4804_ i7211_ g9276_"; p_Lc "d4473_ i7218_ g9283_"; p_db "u4811_ -c5582_ g9295_"; p_dbc "d4485_ c5594_ g9307_"],
   [["-i7207_"; "-i7210_"]; ["-i7209_"; "-i7211_"]; ["-i7218_"; "-i7208_"]]);
  ("42a", [p_H "i7317_"; p_H "i7318_"; p_L "u4892_ i7319_ g9448_"; p_L "u4893_ i7320_ g9449_"; p_L "u4894_ i7321_ g9450_"; p_Lc "d4556_ i7327_ g9456_"; p_ub "u4900_ -c5665_ g9468_"; p_ubc "d4568_ c5677_ g9480_"],
   [["-i7317_"; "-i7320_"]; ["-i7318_"; "-i7321_"]; ["-i7327_"; "-i7319_"]]);
  ("42b", [p_H "i7317_"; p_H "i7318_"; p_L "u4892_ i7319_ g9448_"; p_L "u4893_ i7320_ g9449_"; p_L "u4894_ i7321_ g9450_"; p_Lc "d4557_ i7328_ g9457_"; p_ub "u4901_ -c5666_ g9469_"; p_ubc "d4569_ c5678_ g9481_"],
   [["-i7317_"; "-i7320_"]; ["-i7319_"; "-i7321_"]; ["-i7328_"; "-i7318_"]]);
  ("43a", [p_H "i7427_"; p_Hc "i7428_"; p_L "u4982_ i7429_ g9622_"; p_L "u4983_ i7430_ g9623_"; p_L "u4986_ i7433_ g9626_"; p_Lc "d4645_ i7442_ g9635_"; p_db "u4995_ -c5754_ g9647_"; p_ubc "d4657_ c5766_ g9659_"],
   [["-i7428_"; "-i7430_"]; ["-i7429_"; "-i7433_"]; ["-i7442_"; "-i7427_"]]);
  ("43b", [p_H "i7427_"; p_Hc "i7428_"; p_L "u4982_ i7429_ g9622_"; p_L "u4983_ i7430_ g9623_"; p_L "u4984_ i7431_ g9624_"; p_Lc "d4640_ i7437_ g9630_"; p_db "u4990_ -c5749_ g9642_"; p_ubc "d4652_ c5761_ g9654_"],
   [["-i7427_"; "-i7430_"]; ["-i7428_"; "-i7431_"]; ["-i7437_"; "-i7429_"]]);
  ("43c", [p_H "i7427_"; p_Hc "i7428_"; p_L "u4982_ i7429_ g9622_"; p_L "u4983_ i7430_ g9623_"; p_L "u4984_ i7431_ g9624_"; p_Lc "d4641_ i7438_ g9631_"; p_db "u4991_ -c5750_ g9643_"; p_ubc "d4653_ c5762_ g9655_"],
   [["-i7427_"; "-i7430_"]; ["-i7429_"; "-i7431_"]; ["-i7438_"; "-i7428_"]]);
  ("43d", [p_H "i7511_"; p_Hc "i7512_"; p_L "u5054_ i7513_ g9766_"; p_L "u5055_ i7514_ g9767_"; p_L "u5056_ i7515_ g9768_"; p_Lc "d4712_ i7516_ g9769_"; p_db "u5057_ -c5821_ g9771_"; p_ubc "d4714_ c5823_ g9773_"],
   [["-i7512_"; "-i7511_"]; ["-i7513_"; "-i7515_"]; ["-i7516_"; "-i7514_"]]);
  ("44a", [p_H "i7537_"; p_H "i7538_"; p_L "u5072_ i7539_ g9796_"; p_L "u5073_ i7540_ g9797_"; p_Q "u5074_ c5833_ i7541_ g9798_"; p_Qc "d4724_ -c5839_ i7547_ g9804_"; p_eb "u5080_ g9816_"; p_ebc "d4736_ g9828_"],
   [["-i7537_"; "-i7540_"]; ["-i7538_"; "-i7541_"]; ["-i7547_"; "-i7539_"]]);
  ("44b", [p_H "i7592_"; p_H "i7593_"; p_L "u5121_ i7594_ g9901_"; p_L "u5122_ i7595_ g9902_"; p_Q "u5124_ c5875_ i7597_ g9904_"; p_Qc "d4780_ -c5877_ i7599_ g9906_"; p_eb "u5126_ g9908_"; p_ebc "d4782_ g9910_"],
   [["-i7592_"; "-i7594_"]; ["-i7595_"; "-i7593_"]; ["-i7599_"; "-i7597_"]]);
  ("44c", [p_H "i7537_"; p_H "i7538_"; p_L "u5072_ i7539_ g9796_"; p_L "u5073_ i7540_ g9797_"; p_Q "u5078_ c5837_ i7545_ g9802_"; p_Qc "d4732_ -c5847_ i7555_ g9812_"; p_eb "u5088_ g9824_"; p_ebc "d4744_ g9836_"],
   [["-i7539_"; "-i7540_"]; ["-i7537_"; "-i7545_"]; ["-i7555_"; "-i7538_"]]);
  ("44d", [p_H "i7537_"; p_H "i7538_"; p_L "u5072_ i7539_ g9796_"; p_L "u5073_ i7540_ g9797_"; p_Q "u5074_ c5833_ i7541_ g9798_"; p_Qc "d4725_ -c5840_ i7548_ g9805_"; p_eb "u5081_ g9817_"; p_ebc "d4737_ g9829_"],
   [["-i7537_"; "-i7540_"]; ["-i7539_"; "-i7541_"]; ["-i7548_"; "-i7538_"]]);
  ("45", [p_H "i7647_"; p_H "i7648_"; p_L "u5162_ i7649_ g9970_"; p_L "u5163_ i7650_ g9971_"; p_db "u5165_ -c5899_ g9973_"; p_dbc "d4808_ c5901_ g9975_"; p_eb "u5167_ g9977_"; p_ebc "d4810_ g9979_"],
   [["-i7647_"; "-i7649_"]; ["-i7650_"; "-i7648_"]]);
  ("46", [p_H "i7665_"; p_H "i7666_"; p_L "u5184_ i7667_ g10004_"; p_L "u5185_ i7668_ g10005_"; p_eb "u5187_ g10007_"; p_ebc "d4820_ g10009_"; p_ub "u5189_ -c5911_ g10011_"; p_ubc "d4822_ c5913_ g10013_"],
   [["-i7665_"; "-i7667_"]; ["-i7668_"; "-i7666_"]]);
  ("47a", [p_H "i7683_"; p_H "i7684_"; p_L "u5206_ i7685_ g10038_"; p_L "u5207_ i7686_ g10039_"; p_Q "u5208_ c5923_ i7687_ g10040_"; p_Q "u5209_ c5924_ i7688_ g10041_"; p_Qc "d4832_ -c5948_ i7712_ g10065_"; p_Qc "d4976_ -c6092_ i7856_ g10209_"],
   [["-i7683_"; "-i7687_"]; ["-i7684_"; "-i7688_"]; ["-i7685_"; "-i7712_"]; ["-i7856_"; "-i7686_"]]);
  ("47b", [p_H "i8605_"; p_H "i8606_"; p_L "u5260_ i8607_ g10956_"; p_L "u5261_ i8608_ g10957_"; p_Q "u5262_ c6837_ i8609_ g10958_"; p_Q "u5268_ c6843_ i8615_ g10964_"; p_Qc "d5696_ -c6849_ i8621_ g10970_"; p_Qc "d5732_ -c6885_ i8657_ g11006_"],
   [["-i8605_"; "-i8608_"]; ["-i8606_"; "-i8615_"]; ["-i8607_"; "-i8621_"]; ["-i8657_"; "-i8609_"]]);
  ("47c", [p_H "i10613_"; p_H "i10614_"; p_L "u5580_ i10615_ g12924_"; p_L "u5581_ i10616_ g12925_"; p_Q "u5583_ c8759_ i10618_ g12927_"; p_Q "u5585_ c8761_ i10620_ g12929_"; p_Qc "d7344_ -c8763_ i10622_ g12931_"; p_Qc "d7346_ -c8765_ i10624_ g12933_"],
   [["-i10613_"; "-i10615_"]; ["-i10616_"; "-i10614_"]; ["-i10618_"; "-i10622_"]; ["-i10624_"; "-i10620_"]]);
  ("47d", [p_H "i7683_"; p_H "i7684_"; p_L "u5206_ i7685_ g10038_"; p_L "u5207_ i7686_ g10039_"; p_Q "u5208_ c5923_ i7687_ g10040_"; p_Q "u5209_ c5924_ i7688_ g10041_"; p_Qc "d4834_ -c5950_ i7714_ g10067_"; p_Qc "d4980_ -c6096_ i7860_ g10213_"],
   [["-i7683_"; "-i7687_"]; ["-i7685_"; "-i7688_"]; ["-i7684_"; "-i7714_"]; ["-i7860_"; "-i7686_"]]);
  ("47e", [p_H "i8605_"; p_H "i8606_"; p_L "u5260_ i8607_ g10956_"; p_L "u5261_ i8608_ g10957_"; p_Q "u5262_ c6837_ i8609_ g10958_"; p_Q "u5268_ c6843_ i8615_ g10964_"; p_Qc "d5700_ -c6853_ i8625_ g10974_"; p_Qc "d5740_ -c6893_ i8665_ g11014_"],
   [["-i8605_"; "-i8608_"]; ["-i8609_"; "-i8615_"]; ["-i8606_"; "-i8625_"]; ["-i8665_"; "-i8607_"]]);
  ("47f", [p_H "i8605_"; p_H "i8606_"; p_L "u5260_ i8607_ g10956_"; p_L "u5261_ i8608_ g10957_"; p_Q "u5266_ c6841_ i8613_ g10962_"; p_Q "u5272_ c6847_ i8619_ g10968_"; p_Qc "d5720_ -c6873_ i8645_ g10994_"; p_Qc "d5780_ -c6933_ i8705_ g11054_"],
   [["-i8607_"; "-i8608_"]; ["-i8605_"; "-i8619_"]; ["-i8606_"; "-i8645_"]; ["-i8705_"; "-i8613_"]]);
  ("47g", [p_H "i8605_"; p_H "i8606_"; p_L "u5260_ i8607_ g10956_"; p_L "u5261_ i8608_ g10957_"; p_Q "u5262_ c6837_ i8609_ g10958_"; p_Q "u5268_ c6843_ i8615_ g10964_"; p_Qc "d5698_ -c6851_ i8623_ g10972_"; p_Qc "d5736_ -c6889_ i8661_ g11010_"],
   [["-i8605_"; "-i8608_"]; ["-i8607_"; "-i8615_"]; ["-i8606_"; "-i8623_"]; ["-i8661_"; "-i8609_"]]);
  ("47h", [p_H "i8911_"; p_H "i8912_"; p_L "u5308_ i8913_ g11256_"; p_L "u5309_ i8914_ g11257_"; p_Q "u5314_ c7135_ i8919_ g11262_"; p_Q "u5324_ c7145_ i8929_ g11272_"; p_Qc "d5956_ -c7157_ i8941_ g11284_"; p_Qc "d5968_ -c7169_ i8953_ g11296_"],
   [["-i8913_"; "-i8914_"]; ["-i8911_"; "-i8919_"]; ["-i8929_"; "-i8912_"]; ["-i8953_"; "-i8941_"]]);
  ("47i", [p_H "i8911_"; p_H "i8912_"; p_L "u5308_ i8913_ g11256_"; p_L "u5309_ i8914_ g11257_"; p_Q "u5310_ c7131_ i8915_ g11258_"; p_Q "u5316_ c7137_ i8921_ g11264_"; p_Qc "d5948_ -c7149_ i8933_ g11276_"; p_Qc "d5960_ -c7161_ i8945_ g11288_"],
   [["-i8911_"; "-i8914_"]; ["-i8912_"; "-i8915_"]; ["-i8921_"; "-i8913_"]; ["-i8945_"; "-i8933_"]]);
  ("47j", [p_H "i10628_"; p_H "i10629_"; p_L "u5587_ i10630_ g12937_"; p_L "u5588_ i10631_ g12938_"; p_Q "u5590_ c8769_ i10633_ g12940_"; p_Q "u5592_ c8771_ i10635_ g12942_"; p_Qc "d7350_ -c8773_ i10637_ g12944_"; p_Qc "d7352_ -c8775_ i10639_ g12946_"],
   [["-i10628_"; "-i10630_"]; ["-i10631_"; "-i10629_"]; ["-i10635_"; "-i10633_"]; ["-i10639_"; "-i10637_"]]);
  ("47k", [p_H "i7683_"; p_H "i7684_"; p_L "u5206_ i7685_ g10038_"; p_L "u5207_ i7686_ g10039_"; p_Q "u5208_ c5923_ i7687_ g10040_"; p_Q "u5221_ c5936_ i7700_ g10053_"; p_Qc "d4908_ -c6024_ i7788_ g10141_"; p_Qc "d5128_ -c6244_ i8008_ g10361_"],
   [["-i7685_"; "-i7687_"]; ["-i7686_"; "-i7700_"]; ["-i7683_"; "-i7788_"]; ["-i8008_"; "-i7684_"]]);
  ("47l", [p_H "i8605_"; p_H "i8606_"; p_L "u5260_ i8607_ g10956_"; p_L "u5261_ i8608_ g10957_"; p_Q "u5266_ c6841_ i8613_ g10962_"; p_Q "u5272_ c6847_ i8619_ g10968_"; p_Qc "d5724_ -c6877_ i8649_ g10998_"; p_Qc "d5788_ -c6941_ i8713_ g11062_"],
   [["-i8607_"; "-i8608_"]; ["-i8613_"; "-i8619_"]; ["-i8605_"; "-i8649_"]; ["-i8713_"; "-i8606_"]]);
  ("48", [p_H "i11159_"; p_H "i11160_"; p_L "u5774_ i11161_ g13402_"; p_L "u5775_ i11162_ g13403_"; p_db "u5777_ -c9155_ g13405_"; p_db "u5779_ -c9157_ g13407_"; p_dbc "d7628_ c9159_ g13409_"; p_dbc "d7630_ c9161_ g13411_"],
   [["-i11159_"; "-i11161_"]; ["-i11162_"; "-i11160_"]]);
  ("49", [p_H "i11195_"; p_H "i11196_"; p_L "u5818_ i11197_ g13470_"; p_L "u5819_ i11198_ g13471_"; p_db "u5821_ -c9203_ g13473_"; p_dbc "d7652_ c9205_ g13475_"; p_ub "u5823_ -c9207_ g13477_"; p_ubc "d7654_ c9209_ g13479_"],
   [["-i11195_"; "-i11197_"]; ["-i11198_"; "-i11196_"]]);
  ("50a", [p_H "i11231_"; p_Hc "i11232_"; p_L "u5862_ i11233_ g13538_"; p_L "u5863_ i11234_ g13539_"; p_db "u5865_ -c9251_ g13541_"; p_db "u5867_ -c9253_ g13543_"; p_dbc "d7676_ c9255_ g13545_"; p_ubc "d7678_ c9257_ g13547_"],
   [["-i11231_"; "-i11233_"]; ["-i11234_"; "-i11232_"]]);
  ("50b", [p_H "i11251_"; p_Hc "i11252_"; p_L "u5890_ i11253_ g13582_"; p_L "u5891_ i11254_ g13583_"; p_db "u5892_ -c9283_ g13584_"; p_db "u5893_ -c9284_ g13585_"; p_dbc "d7692_ c9285_ g13586_"; p_ubc "d7693_ c9286_ g13587_"],
   [["-i11252_"; "-i11251_"]; ["-i11254_"; "-i11253_"]]);
  ("51", [p_H "i11267_"; p_H "i11268_"; p_L "u5906_ i11269_ g13606_"; p_L "u5907_ i11270_ g13607_"; p_ub "u5909_ -c9299_ g13609_"; p_ub "u5911_ -c9301_ g13611_"; p_ubc "d7700_ c9303_ g13613_"; p_ubc "d7702_ c9305_ g13615_"],
   [["-i11267_"; "-i11269_"]; ["-i11270_"; "-i11268_"]]);
  ("52a", [p_H "i11303_"; p_Hc "i11304_"; p_L "u5950_ i11305_ g13674_"; p_L "u5951_ i11306_ g13675_"; p_db "u5953_ -c9347_ g13677_"; p_ub "u5955_ -c9349_ g13679_"; p_ubc "d7724_ c9351_ g13681_"; p_ubc "d7726_ c9353_ g13683_"],
   [["-i11303_"; "-i11305_"]; ["-i11306_"; "-i11304_"]]);
  ("52b", [p_H "i11323_"; p_Hc "i11324_"; p_L "u5978_ i11325_ g13718_"; p_L "u5979_ i11326_ g13719_"; p_db "u5980_ -c9379_ g13720_"; p_ub "u5981_ -c9380_ g13721_"; p_ubc "d7740_ c9381_ g13722_"; p_ubc "d7741_ c9382_ g13723_"],
   [["-i11324_"; "-i11323_"]; ["-i11326_"; "-i11325_"]]);
  ("53", [p_Hc "i11339_"; p_Hc "i11340_"; p_L "u5994_ i11341_ g13742_"; p_L "u5995_ i11342_ g13743_"; p_db "u5997_ -c9395_ g13745_"; p_db "u5999_ -c9397_ g13747_"; p_ubc "d7748_ c9399_ g13749_"; p_ubc "d7750_ c9401_ g13751_"],
   [["-i11339_"; "-i11341_"]; ["-i11342_"; "-i11340_"]]);
  ("54a", [p_H "i11375_"; p_H "i11376_"; p_L "u6038_ i11377_ g13810_"; p_Q "u6039_ c9443_ i11378_ g13811_"; p_Q "u6040_ c9444_ i11379_ g13812_"; p_Qc "d7772_ -c9450_ i11385_ g13818_"; p_db "u6046_ -c9462_ g13830_"; p_ebc "d7784_ g13842_"],
   [["-i11375_"; "-i11378_"]; ["-i11376_"; "-i11379_"]; ["-i11385_"; "-i11377_"]]);
  ("54b", [p_H "i11463_"; p_H "i11464_"; p_L "u6118_ i11465_ g13986_"; p_Q "u6119_ c9567_ i11466_ g13987_"; p_Q "u6121_ c9569_ i11468_ g13989_"; p_Qc "d7868_ -c9571_ i11470_ g13991_"; p_db "u6123_ -c9575_ g13995_"; p_ebc "d7872_ g13999_"],
   [["-i11463_"; "-i11465_"]; ["-i11464_"; "-i11468_"]; ["-i11470_"; "-i11466_"]]);
  ("54c", [p_H "i11463_"; p_H "i11464_"; p_L "u6118_ i11465_ g13986_"; p_Q "u6119_ c9567_ i11466_ g13987_"; p_Q "u6121_ c9569_ i11468_ g13989_"; p_Qc "d7869_ -c9572_ i11471_ g13992_"; p_db "u6124_ -c9576_ g13996_"; p_ebc "d7873_ g14000_"],
   [["-i11463_"; "-i11465_"]; ["-i11466_"; "-i11468_"]; ["-i11471_"; "-i11464_"]]);
  ("54d", [p_H "i11375_"; p_H "i11376_"; p_L "u6038_ i11377_ g13810_"; p_Q "u6039_ c9443_ i11378_ g13811_"; p_Q "u6040_ c9444_ i11379_ g13812_"; p_Qc "d7773_ -c9451_ i11386_ g13819_"; p_db "u6047_ -c9463_ g13831_"; p_ebc "d7785_ g13843_"],
   [["-i11375_"; "-i11378_"]; ["-i11377_"; "-i11379_"]; ["-i11386_"; "-i11376_"]]);
  ("55a", [p_H "i11595_"; p_H "i11596_"; p_L "u6218_ i11597_ g14158_"; p_Q "u6219_ c9687_ i11598_ g14159_"; p_Qc "d7940_ -c9688_ i11599_ g14160_"; p_Qc "d7946_ -c9694_ i11605_ g14166_"; p_ebc "d7958_ g14178_"; p_ubc "d7970_ c9706_ g14190_"],
   [["-i11595_"; "-i11598_"]; ["-i11596_"; "-i11599_"]; ["-i11605_"; "-i11597_"]]);
  ("55b", [p_H "i11683_"; p_H "i11684_"; p_L "u6226_ i11685_ g14334_"; p_Q "u6227_ c9811_ i11686_ g14335_"; p_Qc "d8108_ -c9813_ i11688_ g14337_"; p_Qc "d8110_ -c9815_ i11690_ g14339_"; p_ebc "d8114_ g14343_"; p_ubc "d8118_ c9819_ g14347_"],
   [["-i11683_"; "-i11685_"]; ["-i11684_"; "-i11688_"]; ["-i11690_"; "-i11686_"]]);
  ("55c", [p_H "i11727_"; p_H "i11728_"; p_L "u6238_ i11729_ g14402_"; p_Q "u6239_ c9859_ i11730_ g14403_"; p_Qc "d8164_ -c9861_ i11732_ g14405_"; p_Qc "d8166_ -c9863_ i11734_ g14407_"; p_ebc "d8168_ g14409_"; p_ubc "d8170_ c9865_ g14411_"],
   [["-i11727_"; "-i11729_"]; ["-i11730_"; "-i11728_"]; ["-i11734_"; "-i11732_"]]);
  ("55d", [p_H "i11595_"; p_H "i11596_"; p_L "u6218_ i11597_ g14158_"; p_Q "u6219_ c9687_ i11598_ g14159_"; p_Qc "d7944_ -c9692_ i11603_ g14164_"; p_Qc "d7954_ -c9702_ i11613_ g14174_"; p_ebc "d7966_ g14186_"; p_ubc "d7978_ c9714_ g14198_"],
   [["-i11597_"; "-i11598_"]; ["-i11595_"; "-i11603_"]; ["-i11613_"; "-i11596_"]]);
  ("56", [p_H "i11815_"; p_H "i11816_"; p_L "u6266_ i11817_ g14506_"; p_Q "u6267_ c9931_ i11818_ g14507_"; p_db "u6269_ -c9933_ g14509_"; p_db "u6271_ -c9935_ g14511_"; p_dbc "d8240_ c9937_ g14513_"; p_ebc "d8242_ g14515_"],
   [["-i11815_"; "-i11817_"]; ["-i11818_"; "-i11816_"]]);
  ("57", [p_H "i11851_"; p_H "i11852_"; p_L "u6310_ i11853_ g14574_"; p_Qc "d8264_ -c9979_ i11854_ g14575_"; p_db "u6311_ -c9981_ g14577_"; p_dbc "d8266_ c9983_ g14579_"; p_ebc "d8268_ g14581_"; p_ubc "d8270_ c9985_ g14583_"],
   [["-i11851_"; "-i11853_"]; ["-i11854_"; "-i11852_"]]);
  ("58", [p_H "i11887_"; p_H "i11888_"; p_L "u6330_ i11889_ g14642_"; p_Qc "d8312_ -c10027_ i11890_ g14643_"; p_ebc "d8314_ g14645_"; p_ub "u6331_ -c10029_ g14647_"; p_ubc "d8316_ c10031_ g14649_"; p_ubc "d8318_ c10033_ g14651_"],
   [["-i11887_"; "-i11889_"]; ["-i11890_"; "-i11888_"]]);
  ("59a", [p_H "i11923_"; p_Hc "i11924_"; p_L "u6350_ i11925_ g14710_"; p_Q "u6351_ c10075_ i11926_ g14711_"; p_db "u6353_ -c10077_ g14713_"; p_db "u6355_ -c10079_ g14715_"; p_ebc "d8360_ g14717_"; p_ubc "d8362_ c10081_ g14719_"],
   [["-i11923_"; "-i11925_"]; ["-i11926_"; "-i11924_"]]);
  ("59b", [p_H "i11943_"; p_Hc "i11944_"; p_L "u6378_ i11945_ g14754_"; p_Q "u6379_ c10107_ i11946_ g14755_"; p_db "u6380_ -c10108_ g14756_"; p_db "u6381_ -c10109_ g14757_"; p_ebc "d8376_ g14758_"; p_ubc "d8377_ c10110_ g14759_"],
   [["-i11944_"; "-i11943_"]; ["-i11946_"; "-i11945_"]]);
  ("59c", [p_H "i11923_"; p_Hc "i11924_"; p_L "u6350_ i11925_ g14710_"; p_Q "u6352_ c10076_ i11927_ g14712_"; p_db "u6354_ -c10078_ g14714_"; p_db "u6356_ -c10080_ g14716_"; p_ebc "d8361_ g14718_"; p_ubc "d8363_ c10082_ g14720_"],
   [["-i11924_"; "-i11925_"]; ["-i11927_"; "-i11923_"]]);
  ("60a", [p_H "i11959_"; p_Hc "i11960_"; p_L "u6394_ i11961_ g14778_"; p_Qc "d8385_ -c10124_ i11963_ g14780_"; p_db "u6396_ -c10126_ g14782_"; p_ebc "d8387_ g14784_"; p_ubc "d8389_ c10128_ g14786_"; p_ubc "d8391_ c10130_ g14788_"],
   [["-i11960_"; "-i11961_"]; ["-i11963_"; "-i11959_"]]);
  ("60b", [p_H "i11959_"; p_Hc "i11960_"; p_L "u6394_ i11961_ g14778_"; p_Qc "d8384_ -c10123_ i11962_ g14779_"; p_db "u6395_ -c10125_ g14781_"; p_ebc "d8386_ g14783_"; p_ubc "d8388_ c10127_ g14785_"; p_ubc "d8390_ c10129_ g14787_"],
   [["-i11959_"; "-i11961_"]; ["-i11962_"; "-i11960_"]]);
  ("60c", [p_H "i11979_"; p_Hc "i11980_"; p_L "u6406_ i11981_ g14822_"; p_Qc "d8416_ -c10155_ i11982_ g14823_"; p_db "u6407_ -c10156_ g14824_"; p_ebc "d8417_ g14825_"; p_ubc "d8418_ c10157_ g14826_"; p_ubc "d8419_ c10158_ g14827_"],
   [["-i11980_"; "-i11979_"]; ["-i11982_"; "-i11981_"]]);
  ("61a", [p_H "i11995_"; p_H "i11996_"; p_Hc "i11997_"; p_L "u6414_ i11998_ g14846_"; p_L "u6415_ i11999_ g14847_"; p_L "u6421_ i12005_ g14853_"; p_eb "u6433_ g14865_"],
   [["-i11995_"; "-i11998_"]; ["-i11996_"; "-i11999_"]; ["-i12005_"; "-i11997_"]]);
  ("61b", [p_H "i12039_"; p_H "i12040_"; p_Hc "i12041_"; p_L "u6476_ i12042_ g14908_"; p_L "u6478_ i12044_ g14910_"; p_L "u6480_ i12046_ g14912_"; p_eb "u6484_ g14916_"],
   [["-i12039_"; "-i12041_"]; ["-i12040_"; "-i12044_"]; ["-i12046_"; "-i12042_"]]);
  ("62a", [p_H "i12105_"; p_Hc "i12106_"; p_L "u6536_ i12107_ g14968_"; p_L "u6537_ i12108_ g14969_"; p_L "u6538_ i12109_ g14970_"; p_L "u6544_ i12115_ g14976_"; p_eb "u6556_ g14988_"; p_eb "u6568_ g15000_"],
   [["-i12105_"; "-i12108_"]; ["-i12106_"; "-i12109_"]; ["-i12115_"; "-i12107_"]]);
  ("62b", [p_H "i12315_"; p_Hc "i12316_"; p_L "u6896_ i12317_ g15328_"; p_L "u6897_ i12318_ g15329_"; p_L "u6898_ i12319_ g15330_"; p_L "u6899_ i12320_ g15331_"; p_eb "u6901_ g15333_"; p_eb "u6903_ g15335_"],
   [["-i12316_"; "-i12315_"]; ["-i12317_"; "-i12319_"]; ["-i12320_"; "-i12318_"]]);
  ("63a", [p_H "i12380_"; p_Hc "i12381_"; p_L "u6971_ i12382_ g15403_"; p_L "u6972_ i12383_ g15404_"; p_L "u6975_ i12386_ g15407_"; p_Q "u6984_ c10176_ i12395_ g15416_"; p_db "u6996_ -c10188_ g15428_"; p_eb "u7008_ g15440_"],
   [["-i12381_"; "-i12383_"]; ["-i12382_"; "-i12386_"]; ["-i12395_"; "-i12380_"]]);
  ("63b", [p_H "i12380_"; p_Hc "i12381_"; p_L "u6971_ i12382_ g15403_"; p_L "u6972_ i12383_ g15404_"; p_L "u6973_ i12384_ g15405_"; p_Q "u6979_ c10171_ i12390_ g15411_"; p_db "u6991_ -c10183_ g15423_"; p_eb "u7003_ g15435_"],
   [["-i12380_"; "-i12383_"]; ["-i12381_"; "-i12384_"]; ["-i12390_"; "-i12382_"]]);
  ("63c", [p_H "i12380_"; p_Hc "i12381_"; p_L "u6971_ i12382_ g15403_"; p_L "u6972_ i12383_ g15404_"; p_L "u6973_ i12384_ g15405_"; p_Q "u6980_ c10172_ i12391_ g15412_"; p_db "u6992_ -c10184_ g15424_"; p_eb "u7004_ g15436_"],
   [["-i12380_"; "-i12383_"]; ["-i12382_"; "-i12384_"]; ["-i12391_"; "-i12381_"]]);
  ("63d", [p_H "i12590_"; p_Hc "i12591_"; p_L "u7331_ i12592_ g15763_"; p_L "u7332_ i12593_ g15764_"; p_L "u7333_ i12594_ g15765_"; p_Q "u7334_ c10351_ i12595_ g15766_"; p_db "u7336_ -c10353_ g15768_"; p_eb "u7338_ g15770_"],
   [["-i12591_"; "-i12590_"]; ["-i12592_"; "-i12594_"]; ["-i12595_"; "-i12593_"]]);
  ("64a", [p_H "i12655_"; p_Hc "i12656_"; p_L "u7406_ i12657_ g15838_"; p_L "u7407_ i12658_ g15839_"; p_L "u7408_ i12659_ g15840_"; p_Qc "d8432_ -c10381_ i12665_ g15846_"; p_eb "u7414_ g15858_"; p_ubc "d8444_ c10393_ g15870_"],
   [["-i12655_"; "-i12658_"]; ["-i12656_"; "-i12659_"]; ["-i12665_"; "-i12657_"]]);
  ("64b", [p_H "i12655_"; p_Hc "i12656_"; p_L "u7406_ i12657_ g15838_"; p_L "u7407_ i12658_ g15839_"; p_L "u7410_ i12661_ g15842_"; p_Qc "d8437_ -c10386_ i12670_ g15851_"; p_eb "u7419_ g15863_"; p_ubc "d8449_ c10398_ g15875_"],
   [["-i12656_"; "-i12658_"]; ["-i12657_"; "-i12661_"]; ["-i12670_"; "-i12655_"]]);
  ("64c", [p_H "i12655_"; p_Hc "i12656_"; p_L "u7406_ i12657_ g15838_"; p_L "u7407_ i12658_ g15839_"; p_L "u7408_ i12659_ g15840_"; p_Qc "d8433_ -c10382_ i12666_ g15847_"; p_eb "u7415_ g15859_"; p_ubc "d8445_ c10394_ g15871_"],
   [["-i12655_"; "-i12658_"]; ["-i12657_"; "-i12659_"]; ["-i12666_"; "-i12656_"]]);
  ("64d", [p_H "i12739_"; p_Hc "i12740_"; p_L "u7478_ i12741_ g15982_"; p_L "u7479_ i12742_ g15983_"; p_L "u7480_ i12743_ g15984_"; p_Qc "d8504_ -c10453_ i12744_ g15985_"; p_eb "u7481_ g15987_"; p_ubc "d8506_ c10455_ g15989_"],
   [["-i12740_"; "-i12739_"]; ["-i12741_"; "-i12743_"]; ["-i12744_"; "-i12742_"]]);
  ("65a", [p_H "i12765_"; p_Hc "i12766_"; p_L "u7496_ i12767_ g16012_"; p_L "u7497_ i12768_ g16013_"; p_db "u7499_ -c10465_ g16015_"; p_eb "u7501_ g16017_"; p_ebc "d8516_ g16019_"; p_ubc "d8518_ c10467_ g16021_"],
   [["-i12765_"; "-i12767_"]; ["-i12768_"; "-i12766_"]]);
  ("65b", [p_H "i12775_"; p_Hc "i12776_"; p_L "u7510_ i12777_ g16034_"; p_L "u7511_ i12778_ g16035_"; p_db "u7512_ -c10473_ g16036_"; p_eb "u7513_ g16037_"; p_ebc "d8524_ g16038_"; p_ubc "d8525_ c10474_ g16039_"],
   [["-i12776_"; "-i12775_"]; ["-i12778_"; "-i12777_"]]);
  ("71", [p_H "i12783_"; p_H "i12784_"; p_H "i12785_"; p_L "u7518_ i12786_ g16046_"; p_L "u7519_ i12787_ g16047_"; p_Q "u7525_ c10477_ i12793_ g16053_"; p_ub "u7537_ -c10489_ g16065_"],
   [["-i12783_"; "-i12786_"]; ["-i12784_"; "-i12787_"]; ["-i12793_"; "-i12785_"]]);
  ("75", [p_H "i12893_"; p_H "i12894_"; p_L "u7640_ i12895_ g16168_"; p_Q "u7641_ c10561_ i12896_ g16169_"; p_db "u7643_ -c10563_ g16171_"; p_ebc "d8528_ g16173_"; p_ub "u7645_ -c10565_ g16175_"; p_ubc "d8530_ c10567_ g16177_"],
   [["-i12893_"; "-i12895_"]; ["-i12896_"; "-i12894_"]]);
  ("76", [p_db "u7684_ -c10609_ g16236_"; p_db "u7685_ -c10610_ g16237_"; p_ebc "d8552_ g16238_"; p_ebc "d8553_ g16239_"; p_ubc "d8554_ c10611_ g16240_"; p_ubc "d8555_ c10612_ g16241_"],
   [])].

Definition deriv_operators_p : pickled :=
 [("D1", [p_DL "d2_ i6_ g12_"; p_L "u10_ i7_ g13_"; p_db "u11_ -c6_ g14_"; p_ubc "d3_ c7_ g15_"],
   [["-i7_"; "-i6_"]]);
  ("D2a", [p_DH "u30_ d16_ i35_"; p_DL "d17_ i36_ g30_"; p_H "i37_"; p_L "u31_ i38_ g31_"],
   [["-i35_"; "-i37_"]; ["-i38_"; "-i36_"]]);
  ("D2b", [p_DH "u30_ d16_ i35_"; p_DL "d17_ i36_ g30_"; p_H "i37_"; p_L "u32_ i39_ g32_"],
   [["-i36_"; "-i37_"]; ["-i39_"; "-i35_"]]);
  ("D2c", [p_DH "u33_ d18_ i40_"; p_DL "d19_ i41_ g33_"; p_H "i42_"; p_L "u34_ i43_ g34_"],
   [["-i41_"; "-i40_"]; ["-i43_"; "-i42_"]]);
  ("D3", [p_H "i62_"; p_H "i63_"; p_DH "u41_ d26_ i64_"; p_L "u42_ i65_ g47_"; p_ebc "d27_ g49_"],
   [["-i62_"; "-i64_"]; ["-i65_"; "-i63_"]]);
  ("D4a", [p_L "u88_ i116_ g101_"; p_L "u89_ i117_ g102_"; p_DL "d57_ i118_ g103_"; p_Deb "d58_ g104_"; p_H "i119_"],
   [["-i116_"; "-i118_"]; ["-i119_"; "-i117_"]]);
  ("D4b", [p_L "u90_ i121_ g106_"; p_L "u91_ i122_ g107_"; p_DL "d60_ i123_ g108_"; p_Deb "d61_ g109_"; p_H "i124_"],
   [["-i122_"; "-i121_"]; ["-i124_"; "-i123_"]]);
  ("D5a", [p_H "i345_"; p_H "i346_"; p_L "u226_ i347_ g272_"; p_L "u227_ i348_ g273_"; p_DL "d118_ i349_ g274_"; p_Lc "d124_ i355_ g280_"],
   [["-i345_"; "-i348_"]; ["-i346_"; "-i349_"]; ["-i355_"; "-i347_"]]);
  ("D5b", [p_H "i345_"; p_H "i346_"; p_L "u226_ i347_ g272_"; p_L "u227_ i348_ g273_"; p_DL "d118_ i349_ g274_"; p_Lc "d125_ i356_ g281_"],
   [["-i345_"; "-i348_"]; ["-i347_"; "-i349_"]; ["-i356_"; "-i346_"]]);
  ("D5c", [p_H "i345_"; p_H "i346_"; p_L "u226_ i347_ g272_"; p_L "u227_ i348_ g273_"; p_DL "d122_ i353_ g278_"; p_Lc "d132_ i363_ g288_"],
   [["-i347_"; "-i348_"]; ["-i345_"; "-i353_"]; ["-i363_"; "-i346_"]]);
  ("D5d", [p_H "i378_"; p_H "i379_"; p_L "u231_ i380_ g301_"; p_L "u232_ i381_ g302_"; p_DL "d142_ i383_ g304_"; p_Lc "d144_ i385_ g306_"],
   [["-i378_"; "-i380_"]; ["-i381_"; "-i379_"]; ["-i385_"; "-i383_"]]);
  ("D6a", [p_L "u271_ i436_ g361_"; p_L "u272_ i437_ g362_"; p_DH "u273_ d162_ i438_"; p_H "i439_"; p_eb "u274_ g363_"; p_ebc "d163_ g365_"],
   [["-i436_"; "-i438_"]; ["-i439_"; "-i437_"]]);
  ("D6b", [p_L "u276_ i441_ g367_"; p_L "u277_ i442_ g368_"; p_DH "u278_ d165_ i443_"; p_H "i444_"; p_eb "u279_ g369_"; p_ebc "d166_ g370_"],
   [["-i442_"; "-i441_"]; ["-i444_"; "-i443_"]]);
  ("D7a", [p_DL "d213_ i535_ g470_"; p_Ddb "d214_ -c60_ g471_"; p_H "i536_"; p_L "u361_ i537_ g472_"; p_Q "u362_ c61_ i538_ g473_"],
   [["-i535_"; "-i537_"]; ["-i538_"; "-i536_"]]);
  ("D7b", [p_DL "d213_ i535_ g470_"; p_Ddb "d214_ -c60_ g471_"; p_H "i536_"; p_L "u361_ i537_ g472_"; p_Q "u363_ c62_ i539_ g474_"],
   [["-i536_"; "-i537_"]; ["-i539_"; "-i535_"]]);
  ("D7c", [p_DL "d215_ i540_ g475_"; p_Ddb "d216_ -c63_ g476_"; p_H "i541_"; p_L "u364_ i542_ g477_"; p_Q "u365_ c64_ i543_ g478_"],
   [["-i541_"; "-i540_"]; ["-i543_"; "-i542_"]]);
  ("D8a", [p_L "u487_ i764_ g659_"; p_L "u488_ i765_ g660_"; p_DH "u489_ d276_ i766_"; p_H "i767_"; p_Q "u490_ c197_ i768_ g661_"; p_Qc "d277_ -c203_ i774_ g667_"],
   [["-i764_"; "-i767_"]; ["-i765_"; "-i768_"]; ["-i774_"; "-i766_"]]);
  ("D8b", [p_L "u487_ i764_ g659_"; p_L "u488_ i765_ g660_"; p_DH "u489_ d276_ i766_"; p_H "i767_"; p_Q "u490_ c197_ i768_ g661_"; p_Qc "d278_ -c204_ i775_ g668_"],
   [["-i764_"; "-i767_"]; ["-i766_"; "-i768_"]; ["-i775_"; "-i765_"]]);
  ("D8c", [p_L "u487_ i764_ g659_"; p_L "u488_ i765_ g660_"; p_DH "u489_ d276_ i766_"; p_H "i767_"; p_Q "u494_ c201_ i772_ g665_"; p_Qc "d285_ -c211_ i782_ g675_"],
   [["-i766_"; "-i767_"]; ["-i764_"; "-i772_"]; ["-i782_"; "-i765_"]]);
  ("D8d", [p_L "u496_ i786_ g679_"; p_L "u497_ i787_ g680_"; p_DH "u498_ d289_ i788_"; p_H "i789_"; p_Q "u499_ c215_ i791_ g681_"; p_Qc "d290_ -c217_ i793_ g683_"],
   [["-i786_"; "-i788_"]; ["-i787_"; "-i791_"]; ["-i793_"; "-i789_"]]);
  ("D8e", [p_L "u496_ i786_ g679_"; p_L "u497_ i787_ g680_"; p_DH "u498_ d289_ i788_"; p_H "i789_"; p_Q "u499_ c215_ i791_ g681_"; p_Qc "d291_ -c218_ i794_ g684_"],
   [["-i786_"; "-i788_"]; ["-i789_"; "-i791_"]; ["-i794_"; "-i787_"]]);
  ("D8f", [p_L "u501_ i797_ g687_"; p_L "u502_ i798_ g688_"; p_DH "u503_ d294_ i799_"; p_H "i800_"; p_Q "u504_ c221_ i802_ g689_"; p_Qc "d295_ -c223_ i804_ g691_"],
   [["-i797_"; "-i799_"]; ["-i800_"; "-i798_"]; ["-i804_"; "-i802_"]]);
  ("D8g", [p_L "u506_ i806_ g693_"; p_L "u507_ i807_ g694_"; p_DH "u508_ d297_ i808_"; p_H "i809_"; p_Q "u509_ c225_ i810_ g695_"; p_Qc "d298_ -c226_ i811_ g696_"],
   [["-i807_"; "-i806_"]; ["-i808_"; "-i810_"]; ["-i811_"; "-i809_"]]);
  ("D8h", [p_L "u506_ i806_ g693_"; p_L "u507_ i807_ g694_"; p_DH "u508_ d297_ i808_"; p_H "i809_"; p_Q "u509_ c225_ i810_ g695_"; p_Qc "d299_ -c227_ i812_ g697_"],
   [["-i807_"; "-i806_"]; ["-i809_"; "-i810_"]; ["-i812_"; "-i808_"]]);
  ("D8i", [p_L "u510_ i813_ g698_"; p_L "u511_ i814_ g699_"; p_DH "u512_ d300_ i815_"; p_H "i816_"; p_Q "u513_ c228_ i817_ g700_"; p_Qc "d301_ -c229_ i818_ g701_"],
   [["-i814_"; "-i813_"]; ["-i816_"; "-i815_"]; ["-i818_"; "-i817_"]]);
  ("D9a", [p_L "u574_ i910_ g789_"; p_L "u575_ i911_ g790_"; p_DH "u576_ d339_ i912_"; p_H "i913_"; p_db "u577_ -c287_ g791_"; p_dbc "d340_ c289_ g793_"],
   [["-i910_"; "-i912_"]; ["-i913_"; "-i911_"]]);
  ("D9b", [p_L "u579_ i915_ g795_"; p_L "u580_ i916_ g796_"; p_DH "u581_ d342_ i917_"; p_H "i918_"; p_db "u582_ -c291_ g797_"; p_dbc "d343_ c292_ g798_"],
   [["-i916_"; "-i915_"]; ["-i918_"; "-i917_"]]);
  ("D10a", [p_DL "d374_ i991_ g876_"; p_H "i992_"; p_Hc "i993_"; p_L "u650_ i994_ g877_"; p_db "u652_ -c338_ g879_"; p_ubc "d375_ c340_ g881_"],
   [["-i991_"; "-i993_"]; ["-i994_"; "-i992_"]]);
  ("D10b", [p_DL "d374_ i991_ g876_"; p_H "i992_"; p_Hc "i993_"; p_L "u651_ i995_ g878_"; p_db "u653_ -c339_ g880_"; p_ubc "d376_ c341_ g882_"],
   [["-i992_"; "-i993_"]; ["-i995_"; "-i991_"]]);
  ("D10c", [p_DL "d377_ i996_ g883_"; p_H "i997_"; p_Hc "i998_"; p_L "u654_ i999_ g884_"; p_db "u655_ -c342_ g885_"; p_ubc "d378_ c343_ g886_"],
   [["-i997_"; "-i996_"]; ["-i999_"; "-i998_"]]);
  ("D11", [p_DL "d393_ i1014_ g915_"; p_Ddb "d394_ -c358_ g916_"; p_Dubc "u670_ c359_ g917_"; p_L "u671_ i1015_ g918_"],
   [["-i1015_"; "-i1014_"]]);
  ("D12a", [p_L "u705_ i1052_ g963_"; p_L "u706_ i1053_ g964_"; p_DH "u707_ d406_ i1054_"; p_H "i1055_"; p_ub "u708_ -c384_ g965_"; p_ubc "d407_ c386_ g967_"],
   [["-i1052_"; "-i1054_"]; ["-i1055_"; "-i1053_"]]);
  ("D12b", [p_L "u710_ i1057_ g969_"; p_L "u711_ i1058_ g970_"; p_DH "u712_ d409_ i1059_"; p_H "i1060_"; p_ub "u713_ -c388_ g971_"; p_ubc "d410_ c389_ g972_"],
   [["-i1058_"; "-i1057_"]; ["-i1060_"; "-i1059_"]]);
  ("D13a", [p_DL "d481_ i1169_ g1091_"; p_Dubc "u790_ c459_ g1092_"; p_H "i1170_"; p_L "u791_ i1171_ g1093_"; p_Qc "d482_ -c460_ i1172_ g1094_"],
   [["-i1169_"; "-i1171_"]; ["-i1172_"; "-i1170_"]]);
  ("D13b", [p_DL "d481_ i1169_ g1091_"; p_Dubc "u790_ c459_ g1092_"; p_H "i1170_"; p_L "u791_ i1171_ g1093_"; p_Qc "d483_ -c461_ i1173_ g1095_"],
   [["-i1170_"; "-i1171_"]; ["-i1173_"; "-i1169_"]]);
  ("D13c", [p_DL "d484_ i1174_ g1096_"; p_Dubc "u792_ c462_ g1097_"; p_H "i1175_"; p_L "u793_ i1176_ g1098_"; p_Qc "d485_ -c463_ i1177_ g1099_"],
   [["-i1175_"; "-i1174_"]; ["-i1177_"; "-i1176_"]]);
  ("D14a", [p_DH "u831_ d501_ i1223_"; p_H "i1224_"; p_L "u832_ i1225_ g1152_"; p_Q "u833_ c492_ i1226_ g1153_"; p_db "u835_ -c494_ g1155_"; p_ebc "d502_ g1157_"],
   [["-i1223_"; "-i1225_"]; ["-i1226_"; "-i1224_"]]);
  ("D14b", [p_DH "u831_ d501_ i1223_"; p_H "i1224_"; p_L "u832_ i1225_ g1152_"; p_Q "u834_ c493_ i1227_ g1154_"; p_db "u836_ -c495_ g1156_"; p_ebc "d503_ g1158_"],
   [["-i1224_"; "-i1225_"]; ["-i1227_"; "-i1223_"]]);
  ("D14c", [p_DH "u843_ d507_ i1233_"; p_H "i1234_"; p_L "u844_ i1235_ g1166_"; p_Q "u845_ c500_ i1236_ g1167_"; p_db "u846_ -c501_ g1168_"; p_ebc "d508_ g1169_"],
   [["-i1234_"; "-i1233_"]; ["-i1236_"; "-i1235_"]]);
  ("D15", [p_Debc "u883_ g1230_"; p_Dubc "u884_ c532_ g1231_"; p_H "i1269_"; p_L "u885_ i1270_ g1232_"; p_db "u886_ -c533_ g1233_"],
   [["-i1270_"; "-i1269_"]]);
  ("D16a", [p_DH "u904_ d591_ i1318_"; p_H "i1319_"; p_L "u905_ i1320_ g1291_"; p_Qc "d592_ -c564_ i1321_ g1292_"; p_ebc "d594_ g1294_"; p_ubc "d596_ c566_ g1296_"],
   [["-i1318_"; "-i1320_"]; ["-i1321_"; "-i1319_"]]);
  ("D16b", [p_DH "u904_ d591_ i1318_"; p_H "i1319_"; p_L "u905_ i1320_ g1291_"; p_Qc "d593_ -c565_ i1322_ g1293_"; p_ebc "d595_ g1295_"; p_ubc "d597_ c567_ g1297_"],
   [["-i1319_"; "-i1320_"]; ["-i1322_"; "-i1318_"]]);
  ("D16c", [p_DH "u908_ d605_ i1328_"; p_H "i1329_"; p_L "u909_ i1330_ g1305_"; p_Qc "d606_ -c572_ i1331_ g1306_"; p_ebc "d607_ g1307_"; p_ubc "d608_ c573_ g1308_"],
   [["-i1329_"; "-i1328_"]; ["-i1331_"; "-i1330_"]]);
  ("D17", [p_ebc "d625_ g1329_"; p_ebc "d626_ g1330_"; p_DH "u916_ d627_ i1344_"; p_H "i1345_"; p_db "u917_ -c584_ g1331_"; p_ubc "d628_ c585_ g1332_"],
   [["-i1345_"; "-i1344_"]]);
  ("D18a", [p_H "i1678_"; p_H "i1679_"; p_DH "u1082_ d748_ i1680_"; p_DL "d749_ i1681_ g1428_"; p_Hc "i1682_"; p_L "u1083_ i1688_ g1429_"],
   [["-i1678_"; "-i1681_"]; ["-i1679_"; "-i1682_"]; ["-i1688_"; "-i1680_"]]);
  ("D18b", [p_H "i1678_"; p_H "i1679_"; p_DH "u1082_ d748_ i1680_"; p_DL "d749_ i1681_ g1428_"; p_Hc "i1682_"; p_L "u1084_ i1689_ g1430_"],
   [["-i1678_"; "-i1681_"]; ["-i1680_"; "-i1682_"]; ["-i1689_"; "-i1679_"]]);
  ("D18c", [p_H "i1678_"; p_H "i1679_"; p_DH "u1082_ d748_ i1680_"; p_DL "d749_ i1681_ g1428_"; p_Hc "i1686_"; p_L "u1091_ i1696_ g1437_"],
   [["-i1680_"; "-i1681_"]; ["-i1678_"; "-i1686_"]; ["-i1696_"; "-i1679_"]]);
  ("D18d", [p_H "i1700_"; p_H "i1701_"; p_DH "u1095_ d750_ i1702_"; p_DL "d751_ i1703_ g1441_"; p_Hc "i1705_"; p_L "u1096_ i1707_ g1443_"],
   [["-i1700_"; "-i1702_"]; ["-i1701_"; "-i1705_"]; ["-i1707_"; "-i1703_"]]);
  ("D18e", [p_H "i1700_"; p_H "i1701_"; p_DH "u1095_ d750_ i1702_"; p_DL "d751_ i1703_ g1441_"; p_Hc "i1705_"; p_L "u1097_ i1708_ g1444_"],
   [["-i1700_"; "-i1702_"]; ["-i1703_"; "-i1705_"]; ["-i1708_"; "-i1701_"]]);
  ("D18f", [p_H "i1711_"; p_H "i1712_"; p_DH "u1100_ d753_ i1713_"; p_DL "d754_ i1714_ g1447_"; p_Hc "i1716_"; p_L "u1101_ i1718_ g1449_"],
   [["-i1711_"; "-i1713_"]; ["-i1714_"; "-i1712_"]; ["-i1718_"; "-i1716_"]]);
  ("D19a", [p_DDDH "u1167_ d811_ i1823_"; p_DL "d812_ i1824_ g1502_"; p_H "i1825_"; p_L "u1168_ i1826_ g1503_"],
   [["-i1823_"; "-i1825_"]; ["-i1826_"; "-i1824_"]]);
  ("D19b", [p_DDDH "u1167_ d811_ i1823_"; p_DL "d812_ i1824_ g1502_"; p_H "i1825_"; p_L "u1169_ i1827_ g1504_"],
   [["-i1824_"; "-i1825_"]; ["-i1827_"; "-i1823_"]]);
  ("D19c", [p_DDDH "u1170_ d813_ i1828_"; p_DL "d814_ i1829_ g1505_"; p_H "i1830_"; p_L "u1171_ i1831_ g1506_"],
   [["-i1829_"; "-i1828_"]; ["-i1831_"; "-i1830_"]]);
  ("D20", [p_H "i1997_"; p_H "i1998_"; p_H "i1999_"; p_DH "u1238_ d881_ i2000_"; p_Hc "i2001_"; p_L "u1239_ i2007_ g1615_"; p_ebc "d882_ g1627_"],
   [["-i1997_"; "-i2000_"]; ["-i1998_"; "-i2001_"]; ["-i2007_"; "-i1999_"]]);
  ("D21", [p_H "i2160_"; p_H "i2161_"; p_DH "u1344_ d987_ i2162_"; p_DL "d988_ i2163_ g1725_"; p_Debc "u1345_ g1727_"],
   [["-i2160_"; "-i2162_"]; ["-i2163_"; "-i2161_"]]);
  ("D22", [p_DH "u1353_ d992_ i2178_"; p_DH "u1354_ d993_ i2179_"; p_H "i2180_"; p_H "i2181_"; p_ebc "d994_ g1735_"; p_ebc "d996_ g1737_"],
   [["-i2178_"; "-i2180_"]; ["-i2181_"; "-i2179_"]])].
