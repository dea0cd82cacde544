(** * DataTopology: the topology files shipped with the package, completions/topology_data

    Names and contents of the files in partitions/ and graphs/, names of the files in diagrams/.  Generated from the
    files; the contents are unchanged. *)

From Coq Require Import String List.
Import ListNotations.
Local Open Scope string_scope.

Definition partitions_dir : list (string * string) := [
("0s4f_1.dat", "List(F(54),F(162),List(F(6),F(18)))");
("0s6f_1.dat", "List(List(F(6),F(18)),List(F(54),F(162)),List(F(486),F(1458)))");
("0s6f_2.dat", "List(F(1458),List(F(54),F(162)),List(F(486),List(F(6),F(18))))");
("1s4f_1.dat", "List(S(486),List(F(6),F(18)),List(F(54),F(162)))");
("1s4f_2.dat", "List(F(162),List(F(6),F(18)),List(F(54),S(486)))");
("2s2f_1.dat", "List(S(54),S(162),List(F(6),F(18)))");
("2s2f_2.dat", "List(F(18),S(162),List(F(6),S(54)))");
("2s4f_1.dat", "List(S(486),S(1458),List(F(6),F(18)),List(F(54),F(162)))");
("2s4f_2.dat", "List(List(F(6),F(18)),List(F(54),F(162)),List(S(486),S(1458)))");
("2s4f_3.dat", "List(S(1458),List(F(54),F(162)),List(S(486),List(F(6),F(18))))");
("2s4f_4.dat", "List(List(F(6),F(18)),List(F(54),S(486)),List(F(162),S(1458)))");
("2s4f_5.dat", "List(S(1458),List(F(54),S(486)),List(F(162),List(F(6),F(18))))");
("2s4f_6.dat", "List(S(1458),List(F(6),F(18)),List(F(162),List(F(54),S(486))))");
("2s4f_7.dat", "List(S(486),S(1458),List(F(162),List(F(54),List(F(6),F(18)))))");
("2s4f_8.dat", "List(F(162),List(F(18),S(1458)),List(F(54),List(F(6),S(486))))");
("2s6f_1.dat", "List(List(F(6),F(18)),List(F(54),F(162)),List(F(486),F(1458)),List(S(4374),S(13122)))");
("2s6f_10.dat", "List(List(F(54),F(162)),List(F(1458),S(13122)),List(List(F(6),F(18)),List(F(486),S(4374))))");
("2s6f_11.dat", "List(List(F(486),S(4374)),List(F(1458),List(F(6),F(18))),List(S(13122),List(F(54),F(162))))");
("2s6f_12.dat", "List(List(F(54),F(162)),List(F(1458),List(F(6),F(18))),List(S(13122),List(F(486),S(4374))))");
("2s6f_13.dat", "List(List(F(54),F(162)),List(F(486),S(4374)),List(S(13122),List(F(1458),List(F(6),F(18)))))");
("2s6f_14.dat", "List(List(F(54),F(162)),List(F(1458),List(F(486),S(4374))),List(S(13122),List(F(6),F(18))))");
("2s6f_15.dat", "List(List(F(54),F(162)),List(F(486),S(4374)),List(F(1458),List(S(13122),List(F(6),F(18)))))");
("2s6f_16.dat", "List(List(F(6),F(18)),List(F(54),F(162)),List(S(13122),List(F(1458),List(F(486),S(4374)))))");
("2s6f_17.dat", "List(List(F(6),F(18)),List(F(54),F(162)),List(F(1458),List(S(13122),List(F(486),S(4374)))))");
("2s6f_18.dat", "List(List(F(486),List(F(6),F(18))),List(F(1458),List(F(54),F(162))),List(S(4374),S(13122)))");
("2s6f_19.dat", "List(List(F(54),F(162)),List(F(1458),List(F(486),List(F(6),F(18)))),List(S(4374),S(13122)))");
("2s6f_2.dat", "List(S(13122),List(F(54),F(162)),List(F(486),F(1458)),List(S(4374),List(F(6),F(18))))");
("2s6f_20.dat", "List(List(F(54),F(162)),List(F(486),List(F(6),F(18))),List(F(1458),List(S(4374),S(13122))))");
("2s6f_21.dat", "List(List(F(6),F(18)),List(F(54),F(162)),List(F(1458),List(F(486),List(S(4374),S(13122)))))");
("2s6f_22.dat", "List(S(13122),List(F(1458),List(F(54),F(162))),List(S(4374),List(F(486),List(F(6),F(18)))))");
("2s6f_23.dat", "List(S(13122),List(F(1458),List(F(486),List(F(6),F(18)))),List(S(4374),List(F(54),F(162))))");
("2s6f_24.dat", "List(S(13122),List(F(486),List(F(6),F(18))),List(F(1458),List(S(4374),List(F(54),F(162)))))");
("2s6f_25.dat", "List(S(13122),List(F(54),F(162)),List(F(1458),List(F(486),List(S(4374),List(F(6),F(18))))))");
("2s6f_26.dat", "List(List(F(162),S(13122)),List(F(486),List(F(6),F(18))),List(F(1458),List(F(54),S(4374))))");
("2s6f_27.dat", "List(List(F(54),S(4374)),List(F(162),S(13122)),List(F(1458),List(F(486),List(F(6),F(18)))))");
("2s6f_28.dat", "List(List(F(6),F(18)),List(F(486),List(F(54),S(4374))),List(F(1458),List(F(162),S(13122))))");
("2s6f_29.dat", "List(List(F(6),F(18)),List(F(162),S(13122)),List(F(1458),List(F(486),List(F(54),S(4374)))))");
("2s6f_3.dat", "List(List(F(6),F(18)),List(F(54),F(162)),List(S(4374),S(13122),List(F(486),F(1458))))");
("2s6f_30.dat", "List(S(13122),List(F(486),List(F(54),S(4374))),List(F(1458),List(F(162),List(F(6),F(18)))))");
("2s6f_31.dat", "List(S(13122),List(F(162),List(F(6),F(18))),List(F(1458),List(F(486),List(F(54),S(4374)))))");
("2s6f_32.dat", "List(S(13122),List(F(54),S(4374)),List(F(1458),List(F(486),List(F(162),List(F(6),F(18))))))");
("2s6f_33.dat", "List(S(13122),List(F(6),F(18)),List(F(1458),List(F(486),List(F(162),List(F(54),S(4374))))))");
("2s6f_34.dat", "List(S(4374),S(13122),List(F(1458),List(F(486),List(F(162),List(F(54),List(F(6),F(18)))))))");
("2s6f_35.dat", "List(F(1458),List(F(162),List(F(18),S(13122))),List(F(486),List(F(54),List(F(6),S(4374)))))");
("2s6f_4.dat", "List(S(13122),List(F(6),F(18)),List(F(54),F(162)),List(F(1458),List(F(486),S(4374))))");
("2s6f_5.dat", "List(S(4374),S(13122),List(F(54),F(162)),List(F(1458),List(F(486),List(F(6),F(18)))))");
("2s6f_6.dat", "List(List(F(486),F(1458)),List(S(4374),S(13122)),List(List(F(6),F(18)),List(F(54),F(162))))");
("2s6f_7.dat", "List(List(F(486),F(1458)),List(S(4374),List(F(6),F(18))),List(S(13122),List(F(54),F(162))))");
("2s6f_8.dat", "List(List(F(54),F(162)),List(F(486),F(1458)),List(S(13122),List(S(4374),List(F(6),F(18)))))");
("2s6f_9.dat", "List(List(F(486),S(4374)),List(F(1458),S(13122)),List(List(F(6),F(18)),List(F(54),F(162))))");
("3s2f_1.dat", "List(S(54),S(162),S(486),List(F(6),F(18)))");
("3s2f_2.dat", "List(S(486),List(F(6),F(18)),List(S(54),S(162)))");
("3s2f_3.dat", "List(S(486),List(F(6),S(54)),List(F(18),S(162)))");
("3s2f_4.dat", "List(S(162),S(486),List(F(18),List(F(6),S(54))))");
("3s4f_1.dat", "List(S(4374),List(F(6),F(18)),List(F(54),F(162)),List(S(486),S(1458)))");
("3s4f_10.dat", "List(List(F(6),F(18)),List(F(162),S(1458)),List(S(4374),List(F(54),S(486))))");
("3s4f_11.dat", "List(List(F(54),S(486)),List(F(162),List(F(6),F(18))),List(S(1458),S(4374)))");
("3s4f_12.dat", "List(List(F(6),F(18)),List(F(162),List(F(54),S(486))),List(S(1458),S(4374)))");
("3s4f_13.dat", "List(List(F(6),F(18)),List(F(54),S(486)),List(F(162),List(S(1458),S(4374))))");
("3s4f_14.dat", "List(S(4374),List(F(162),List(F(6),F(18))),List(S(1458),List(F(54),S(486))))");
("3s4f_15.dat", "List(S(4374),List(F(162),List(F(54),S(486))),List(S(1458),List(F(6),F(18))))");
("3s4f_16.dat", "List(S(4374),List(F(54),S(486)),List(F(162),List(S(1458),List(F(6),F(18)))))");
("3s4f_17.dat", "List(S(4374),List(F(162),List(F(54),List(F(6),F(18)))),List(S(486),S(1458)))");
("3s4f_18.dat", "List(S(4374),List(F(54),List(F(6),F(18))),List(F(162),List(S(486),S(1458))))");
("3s4f_19.dat", "List(S(4374),List(F(6),F(18)),List(F(162),List(F(54),List(S(486),S(1458)))))");
("3s4f_2.dat", "List(S(1458),S(4374),List(F(54),F(162)),List(S(486),List(F(6),F(18))))");
("3s4f_20.dat", "List(List(F(18),S(1458)),List(F(54),S(4374)),List(F(162),List(F(6),S(486))))");
("3s4f_21.dat", "List(S(4374),List(F(54),List(F(6),S(486))),List(F(162),List(F(18),S(1458))))");
("3s4f_22.dat", "List(S(4374),List(F(18),S(1458)),List(F(162),List(F(54),List(F(6),S(486)))))");
("3s4f_23.dat", "List(S(1458),S(4374),List(F(162),List(F(54),List(F(18),List(F(6),S(486))))))");
("3s4f_3.dat", "List(List(F(6),F(18)),List(F(54),F(162)),List(S(486),S(1458),S(4374)))");
("3s4f_4.dat", "List(S(1458),S(4374),List(F(6),F(18)),List(F(162),List(F(54),S(486))))");
("3s4f_5.dat", "List(S(486),S(1458),S(4374),List(F(162),List(F(54),List(F(6),F(18)))))");
("3s4f_6.dat", "List(List(F(54),F(162)),List(S(486),S(1458)),List(S(4374),List(F(6),F(18))))");
("3s4f_7.dat", "List(List(F(6),F(18)),List(F(54),F(162)),List(S(4374),List(S(486),S(1458))))");
("3s4f_8.dat", "List(S(4374),List(S(486),List(F(6),F(18))),List(S(1458),List(F(54),F(162))))");
("3s4f_9.dat", "List(List(F(54),S(486)),List(F(162),S(1458)),List(S(4374),List(F(6),F(18))))");
("4s0f_1.dat", "List(S(54),S(162),List(S(6),S(18)))");
("4s2f_1.dat", "List(S(486),S(1458),List(F(6),F(18)),List(S(54),S(162)))");
("4s2f_10.dat", "List(S(486),S(1458),List(F(18),List(F(6),List(S(54),S(162)))))");
("4s2f_2.dat", "List(S(162),S(486),S(1458),List(S(54),List(F(6),F(18))))");
("4s2f_3.dat", "List(S(162),S(486),S(1458),List(F(18),List(F(6),S(54))))");
("4s2f_4.dat", "List(List(F(6),F(18)),List(S(54),S(162)),List(S(486),S(1458)))");
("4s2f_5.dat", "List(S(1458),List(S(54),S(162)),List(S(486),List(F(6),F(18))))");
("4s2f_6.dat", "List(List(F(6),S(54)),List(F(18),S(162)),List(S(486),S(1458)))");
("4s2f_7.dat", "List(S(1458),List(F(18),S(162)),List(S(486),List(F(6),S(54))))");
("4s2f_8.dat", "List(S(1458),List(F(18),List(F(6),S(54))),List(S(162),S(486)))");
("4s2f_9.dat", "List(S(1458),List(F(6),S(54)),List(F(18),List(S(162),S(486))))");
("5s2f_1.dat", "List(S(1458),S(4374),List(F(6),F(18)),List(S(54),S(162),S(486)))");
("5s2f_10.dat", "List(S(486),S(1458),S(4374),List(F(18),List(S(162),List(F(6),S(54)))))");
("5s2f_11.dat", "List(S(486),S(1458),S(4374),List(F(18),List(F(6),List(S(54),S(162)))))");
("5s2f_12.dat", "List(List(S(54),S(162)),List(S(486),S(1458)),List(S(4374),List(F(6),F(18))))");
("5s2f_13.dat", "List(List(F(6),F(18)),List(S(486),S(1458)),List(S(4374),List(S(54),S(162))))");
("5s2f_14.dat", "List(S(4374),List(S(486),List(F(6),F(18))),List(S(1458),List(S(54),S(162))))");
("5s2f_15.dat", "List(List(F(18),S(162)),List(S(486),S(1458)),List(S(4374),List(F(6),S(54))))");
("5s2f_16.dat", "List(List(F(6),S(54)),List(F(18),S(162)),List(S(4374),List(S(486),S(1458))))");
("5s2f_17.dat", "List(S(4374),List(S(486),List(F(6),S(54))),List(S(1458),List(F(18),S(162))))");
("5s2f_18.dat", "List(List(F(18),List(F(6),S(54))),List(S(162),S(486)),List(S(1458),S(4374)))");
("5s2f_19.dat", "List(List(F(6),S(54)),List(F(18),List(S(162),S(486))),List(S(1458),S(4374)))");
("5s2f_2.dat", "List(S(4374),List(F(6),F(18)),List(S(54),S(162)),List(S(486),S(1458)))");
("5s2f_20.dat", "List(S(4374),List(S(162),S(486)),List(S(1458),List(F(18),List(F(6),S(54)))))");
("5s2f_21.dat", "List(S(4374),List(F(18),List(S(162),S(486))),List(S(1458),List(F(6),S(54))))");
("5s2f_22.dat", "List(S(4374),List(F(18),List(S(1458),List(F(6),S(54)))),List(S(162),S(486)))");
("5s2f_23.dat", "List(S(4374),List(F(18),List(F(6),List(S(54),S(162)))),List(S(486),S(1458)))");
("5s2f_24.dat", "List(S(4374),List(F(6),List(S(54),S(162))),List(F(18),List(S(486),S(1458))))");
("5s2f_3.dat", "List(S(1458),S(4374),List(S(54),S(162)),List(S(486),List(F(6),F(18))))");
("5s2f_4.dat", "List(S(1458),S(4374),List(F(6),F(18)),List(S(486),List(S(54),S(162))))");
("5s2f_5.dat", "List(List(F(6),F(18)),List(S(54),S(162)),List(S(486),S(1458),S(4374)))");
("5s2f_6.dat", "List(S(486),S(1458),S(4374),List(S(162),List(S(54),List(F(6),F(18)))))");
("5s2f_7.dat", "List(List(F(6),S(54)),List(F(18),S(162)),List(S(486),S(1458),S(4374)))");
("5s2f_8.dat", "List(S(1458),S(4374),List(F(18),List(F(6),S(54))),List(S(162),S(486)))");
("5s2f_9.dat", "List(S(486),S(1458),S(4374),List(S(162),List(F(18),List(F(6),S(54)))))");
("5s4f_1.dat", "List(List(F(6),F(18)),List(F(54),F(162)),List(S(486),S(1458)),List(S(4374),S(13122),S(39366)))");
("5s4f_10.dat", "List(S(39366),List(F(6),F(18)),List(F(162),List(F(54),S(486))),List(S(1458),S(4374),S(13122)))");
("5s4f_100.dat", "List(List(F(54),List(F(6),S(486))),List(F(162),List(F(18),S(1458))),List(S(4374),S(13122),S(39366)))");
("5s4f_101.dat", "List(List(F(18),S(1458)),List(F(162),List(F(54),List(F(6),S(486)))),List(S(4374),S(13122),S(39366)))");
("5s4f_102.dat", "List(List(F(18),S(1458)),List(F(54),List(F(6),S(486))),List(F(162),List(S(4374),S(13122),S(39366))))");
("5s4f_103.dat", "List(List(F(6),S(486)),List(F(18),S(1458)),List(F(54),List(F(162),List(S(4374),S(13122),S(39366)))))");
("5s4f_104.dat", "List(S(13122),S(39366),List(F(162),List(F(54),List(F(18),List(F(6),S(486))))),List(S(1458),S(4374)))");
("5s4f_105.dat", "List(S(13122),S(39366),List(F(18),List(F(6),S(486))),List(F(162),List(F(54),List(S(1458),S(4374)))))");
("5s4f_106.dat", "List(S(4374),S(13122),S(39366),List(S(1458),List(F(162),List(F(54),List(F(18),List(F(6),S(486)))))))");
("5s4f_107.dat", "List(S(4374),S(13122),S(39366),List(F(162),List(S(1458),List(F(54),List(F(18),List(F(6),S(486)))))))");
("5s4f_108.dat", "List(S(4374),S(13122),S(39366),List(F(162),List(F(54),List(S(1458),List(F(18),List(F(6),S(486)))))))");
("5s4f_109.dat", "List(S(4374),S(13122),S(39366),List(F(162),List(F(18),List(F(54),List(S(1458),List(F(6),S(486)))))))");
("5s4f_11.dat", "List(S(13122),S(39366),List(F(162),List(F(54),S(486))),List(S(1458),S(4374),List(F(6),F(18))))");
("5s4f_110.dat", "List(S(4374),S(13122),S(39366),List(F(162),List(F(18),List(F(6),List(F(54),List(S(486),S(1458)))))))");
("5s4f_111.dat", "List(List(S(4374),S(13122)),List(S(39366),List(F(6),F(18))),List(List(F(54),F(162)),List(S(486),S(1458))))");
("5s4f_112.dat", "List(List(S(486),S(1458)),List(S(4374),S(13122)),List(List(F(54),F(162)),List(S(39366),List(F(6),F(18)))))");
("5s4f_113.dat", "List(List(S(4374),S(13122)),List(S(39366),List(S(486),S(1458))),List(List(F(6),F(18)),List(F(54),F(162))))");
("5s4f_114.dat", "List(List(S(486),S(1458)),List(S(4374),S(13122)),List(S(39366),List(List(F(6),F(18)),List(F(54),F(162)))))");
("5s4f_115.dat", "List(List(F(54),F(162)),List(S(39366),List(S(486),S(1458))),List(List(F(6),F(18)),List(S(4374),S(13122))))");
("5s4f_116.dat", "List(List(F(54),F(162)),List(S(4374),S(13122)),List(S(39366),List(List(F(6),F(18)),List(S(486),S(1458)))))");
("5s4f_117.dat", "List(List(S(4374),List(F(6),F(18))),List(S(13122),List(F(54),F(162))),List(S(39366),List(S(486),S(1458))))");
("5s4f_118.dat", "List(List(S(486),S(1458)),List(S(13122),List(F(54),F(162))),List(S(39366),List(S(4374),List(F(6),F(18)))))");
("5s4f_119.dat", "List(List(F(54),F(162)),List(S(13122),List(S(486),S(1458))),List(S(39366),List(S(4374),List(F(6),F(18)))))");
("5s4f_12.dat", "List(S(13122),S(39366),List(F(162),List(F(54),List(F(6),F(18)))),List(S(486),S(1458),S(4374)))");
("5s4f_120.dat", "List(List(F(54),F(162)),List(S(4374),List(F(6),F(18))),List(S(39366),List(S(13122),List(S(486),S(1458)))))");
("5s4f_121.dat", "List(List(F(54),F(162)),List(S(486),S(1458)),List(S(39366),List(S(13122),List(S(4374),List(F(6),F(18))))))");
("5s4f_122.dat", "List(List(F(6),F(18)),List(F(54),F(162)),List(S(39366),List(S(13122),List(S(4374),List(S(486),S(1458))))))");
("5s4f_123.dat", "List(S(39366),List(S(4374),List(S(486),List(F(6),F(18)))),List(S(13122),List(S(1458),List(F(54),F(162)))))");
("5s4f_124.dat", "List(List(S(4374),S(13122)),List(S(39366),List(F(6),F(18))),List(List(F(54),S(486)),List(F(162),S(1458))))");
("5s4f_125.dat", "List(List(F(162),S(1458)),List(S(39366),List(F(6),F(18))),List(List(F(54),S(486)),List(S(4374),S(13122))))");
("5s4f_126.dat", "List(List(S(4374),S(13122)),List(S(39366),List(F(54),S(486))),List(List(F(6),F(18)),List(F(162),S(1458))))");
("5s4f_127.dat", "List(List(F(162),S(1458)),List(S(39366),List(F(54),S(486))),List(List(F(6),F(18)),List(S(4374),S(13122))))");
("5s4f_128.dat", "List(List(F(162),S(1458)),List(S(4374),S(13122)),List(List(F(6),F(18)),List(S(39366),List(F(54),S(486)))))");
("5s4f_129.dat", "List(List(F(162),S(1458)),List(S(39366),List(S(4374),S(13122))),List(List(F(6),F(18)),List(F(54),S(486))))");
("5s4f_13.dat", "List(S(13122),S(39366),List(F(6),F(18)),List(F(162),List(F(54),List(S(486),S(1458),S(4374)))))");
("5s4f_130.dat", "List(List(F(162),S(1458)),List(S(4374),S(13122)),List(S(39366),List(List(F(6),F(18)),List(F(54),S(486)))))");
("5s4f_131.dat", "List(List(F(54),S(486)),List(F(162),S(1458)),List(List(F(6),F(18)),List(S(39366),List(S(4374),S(13122)))))");
("5s4f_132.dat", "List(List(F(54),S(486)),List(F(162),S(1458)),List(S(39366),List(List(F(6),F(18)),List(S(4374),S(13122)))))");
("5s4f_133.dat", "List(List(S(4374),List(F(6),F(18))),List(S(13122),List(F(54),S(486))),List(S(39366),List(F(162),S(1458))))");
("5s4f_134.dat", "List(List(F(162),S(1458)),List(S(13122),List(F(54),S(486))),List(S(39366),List(S(4374),List(F(6),F(18)))))");
("5s4f_135.dat", "List(List(F(162),S(1458)),List(S(4374),List(F(6),F(18))),List(S(39366),List(S(13122),List(F(54),S(486)))))");
("5s4f_136.dat", "List(List(F(54),S(486)),List(F(162),S(1458)),List(S(39366),List(S(13122),List(S(4374),List(F(6),F(18))))))");
("5s4f_137.dat", "List(List(F(6),F(18)),List(S(13122),List(F(162),S(1458))),List(S(39366),List(S(4374),List(F(54),S(486)))))");
("5s4f_138.dat", "List(List(F(6),F(18)),List(F(162),S(1458)),List(S(39366),List(S(13122),List(S(4374),List(F(54),S(486))))))");
("5s4f_139.dat", "List(List(S(1458),S(4374)),List(S(13122),S(39366)),List(List(F(54),S(486)),List(F(162),List(F(6),F(18)))))");
("5s4f_14.dat", "List(List(F(54),F(162)),List(S(486),S(1458)),List(S(4374),S(13122)),List(S(39366),List(F(6),F(18))))");
("5s4f_140.dat", "List(List(F(162),List(F(6),F(18))),List(S(13122),S(39366)),List(List(F(54),S(486)),List(S(1458),S(4374))))");
("5s4f_141.dat", "List(List(S(1458),S(4374)),List(S(13122),S(39366)),List(List(F(6),F(18)),List(F(162),List(F(54),S(486)))))");
("5s4f_142.dat", "List(List(F(162),List(F(54),S(486))),List(S(13122),S(39366)),List(List(F(6),F(18)),List(S(1458),S(4374))))");
("5s4f_143.dat", "List(List(F(162),List(S(1458),S(4374))),List(S(13122),S(39366)),List(List(F(6),F(18)),List(F(54),S(486))))");
("5s4f_144.dat", "List(List(F(162),List(List(F(6),F(18)),List(F(54),S(486)))),List(S(1458),S(4374)),List(S(13122),S(39366)))");
("5s4f_145.dat", "List(List(F(54),S(486)),List(S(13122),S(39366)),List(List(F(6),F(18)),List(F(162),List(S(1458),S(4374)))))");
("5s4f_146.dat", "List(List(F(54),S(486)),List(F(162),List(S(1458),S(4374))),List(List(F(6),F(18)),List(S(13122),S(39366))))");
("5s4f_147.dat", "List(List(F(54),S(486)),List(F(162),List(List(F(6),F(18)),List(S(1458),S(4374)))),List(S(13122),S(39366)))");
("5s4f_148.dat", "List(List(S(1458),S(4374)),List(S(13122),List(F(54),S(486))),List(S(39366),List(F(162),List(F(6),F(18)))))");
("5s4f_149.dat", "List(List(F(162),List(F(6),F(18))),List(S(13122),List(F(54),S(486))),List(S(39366),List(S(1458),S(4374))))");
("5s4f_15.dat", "List(List(F(6),F(18)),List(F(54),F(162)),List(S(4374),S(13122)),List(S(39366),List(S(486),S(1458))))");
("5s4f_150.dat", "List(List(F(162),List(F(6),F(18))),List(S(1458),S(4374)),List(S(39366),List(S(13122),List(F(54),S(486)))))");
("5s4f_151.dat", "List(List(F(54),S(486)),List(S(13122),List(F(162),List(F(6),F(18)))),List(S(39366),List(S(1458),S(4374))))");
("5s4f_152.dat", "List(List(F(54),S(486)),List(S(1458),S(4374)),List(S(39366),List(S(13122),List(F(162),List(F(6),F(18))))))");
("5s4f_153.dat", "List(List(F(54),S(486)),List(F(162),List(F(6),F(18))),List(S(39366),List(S(13122),List(S(1458),S(4374)))))");
("5s4f_154.dat", "List(List(S(1458),S(4374)),List(S(13122),List(F(6),F(18))),List(S(39366),List(F(162),List(F(54),S(486)))))");
("5s4f_155.dat", "List(List(F(162),List(F(54),S(486))),List(S(13122),List(F(6),F(18))),List(S(39366),List(S(1458),S(4374))))");
("5s4f_156.dat", "List(List(F(162),List(F(54),S(486))),List(S(1458),S(4374)),List(S(39366),List(S(13122),List(F(6),F(18)))))");
("5s4f_157.dat", "List(List(F(162),List(S(1458),S(4374))),List(S(13122),List(F(6),F(18))),List(S(39366),List(F(54),S(486))))");
("5s4f_158.dat", "List(List(F(162),List(S(13122),List(F(6),F(18)))),List(S(1458),S(4374)),List(S(39366),List(F(54),S(486))))");
("5s4f_159.dat", "List(List(F(162),List(S(39366),List(F(54),S(486)))),List(S(1458),S(4374)),List(S(13122),List(F(6),F(18))))");
("5s4f_16.dat", "List(List(F(6),F(18)),List(F(54),F(162)),List(S(39366),List(S(486),S(1458)),List(S(4374),S(13122))))");
("5s4f_160.dat", "List(List(F(54),S(486)),List(S(13122),List(F(6),F(18))),List(S(39366),List(F(162),List(S(1458),S(4374)))))");
("5s4f_161.dat", "List(List(F(54),S(486)),List(F(162),List(S(1458),S(4374))),List(S(39366),List(S(13122),List(F(6),F(18)))))");
("5s4f_162.dat", "List(List(F(54),S(486)),List(S(1458),S(4374)),List(S(39366),List(F(162),List(S(13122),List(F(6),F(18))))))");
("5s4f_163.dat", "List(List(F(54),S(486)),List(F(162),List(S(13122),List(F(6),F(18)))),List(S(39366),List(S(1458),S(4374))))");
("5s4f_164.dat", "List(List(F(54),S(486)),List(F(162),List(S(39366),List(S(1458),S(4374)))),List(S(13122),List(F(6),F(18))))");
("5s4f_165.dat", "List(List(F(54),S(486)),List(F(162),List(S(39366),List(S(13122),List(F(6),F(18))))),List(S(1458),S(4374)))");
("5s4f_166.dat", "List(List(F(6),F(18)),List(S(13122),List(F(162),List(F(54),S(486)))),List(S(39366),List(S(1458),S(4374))))");
("5s4f_167.dat", "List(List(F(6),F(18)),List(S(1458),S(4374)),List(S(39366),List(S(13122),List(F(162),List(F(54),S(486))))))");
("5s4f_168.dat", "List(List(F(6),F(18)),List(F(162),List(F(54),S(486))),List(S(39366),List(S(13122),List(S(1458),S(4374)))))");
("5s4f_169.dat", "List(List(F(6),F(18)),List(S(13122),List(F(54),S(486))),List(S(39366),List(F(162),List(S(1458),S(4374)))))");
("5s4f_17.dat", "List(List(F(6),F(18)),List(S(486),S(1458)),List(S(39366),List(F(54),F(162)),List(S(4374),S(13122))))");
("5s4f_170.dat", "List(List(F(6),F(18)),List(F(162),List(S(1458),S(4374))),List(S(39366),List(S(13122),List(F(54),S(486)))))");
("5s4f_171.dat", "List(List(F(6),F(18)),List(S(1458),S(4374)),List(S(39366),List(F(162),List(S(13122),List(F(54),S(486))))))");
("5s4f_172.dat", "List(List(F(6),F(18)),List(F(162),List(S(13122),List(F(54),S(486)))),List(S(39366),List(S(1458),S(4374))))");
("5s4f_173.dat", "List(List(F(6),F(18)),List(F(162),List(S(39366),List(S(1458),S(4374)))),List(S(13122),List(F(54),S(486))))");
("5s4f_174.dat", "List(List(F(6),F(18)),List(F(162),List(S(39366),List(S(13122),List(F(54),S(486))))),List(S(1458),S(4374)))");
("5s4f_175.dat", "List(List(F(6),F(18)),List(F(54),S(486)),List(S(39366),List(S(13122),List(F(162),List(S(1458),S(4374))))))");
("5s4f_176.dat", "List(List(F(6),F(18)),List(F(54),S(486)),List(S(39366),List(F(162),List(S(13122),List(S(1458),S(4374))))))");
("5s4f_177.dat", "List(List(F(6),F(18)),List(F(54),S(486)),List(F(162),List(S(13122),List(S(39366),List(S(1458),S(4374))))))");
("5s4f_178.dat", "List(S(39366),List(S(4374),List(F(162),List(F(6),F(18)))),List(S(13122),List(S(1458),List(F(54),S(486)))))");
("5s4f_179.dat", "List(S(39366),List(S(4374),List(F(162),List(F(54),S(486)))),List(S(13122),List(S(1458),List(F(6),F(18)))))");
("5s4f_18.dat", "List(List(S(486),S(1458)),List(S(4374),S(13122)),List(S(39366),List(F(6),F(18)),List(F(54),F(162))))");
("5s4f_180.dat", "List(S(39366),List(S(4374),List(F(54),S(486))),List(S(13122),List(F(162),List(S(1458),List(F(6),F(18))))))");
("5s4f_181.dat", "List(S(39366),List(S(1458),List(F(6),F(18))),List(S(13122),List(F(162),List(S(4374),List(F(54),S(486))))))");
("5s4f_182.dat", "List(S(39366),List(F(162),List(S(13122),List(S(1458),List(F(6),F(18))))),List(S(4374),List(F(54),S(486))))");
("5s4f_183.dat", "List(List(S(486),S(1458)),List(S(4374),S(13122)),List(S(39366),List(F(162),List(F(54),List(F(6),F(18))))))");
("5s4f_184.dat", "List(List(F(162),List(F(54),List(F(6),F(18)))),List(S(4374),S(13122)),List(S(39366),List(S(486),S(1458))))");
("5s4f_185.dat", "List(List(F(162),List(S(486),S(1458))),List(S(4374),S(13122)),List(S(39366),List(F(54),List(F(6),F(18)))))");
("5s4f_186.dat", "List(List(F(162),List(S(39366),List(F(54),List(F(6),F(18))))),List(S(486),S(1458)),List(S(4374),S(13122)))");
("5s4f_187.dat", "List(List(F(54),List(F(6),F(18))),List(S(4374),S(13122)),List(S(39366),List(F(162),List(S(486),S(1458)))))");
("5s4f_188.dat", "List(List(F(54),List(F(6),F(18))),List(F(162),List(S(486),S(1458))),List(S(39366),List(S(4374),S(13122))))");
("5s4f_189.dat", "List(List(F(54),List(F(6),F(18))),List(F(162),List(S(39366),List(S(486),S(1458)))),List(S(4374),S(13122)))");
("5s4f_19.dat", "List(S(39366),List(S(486),S(1458)),List(S(4374),List(F(6),F(18))),List(S(13122),List(F(54),F(162))))");
("5s4f_190.dat", "List(List(F(162),List(F(54),List(S(486),S(1458)))),List(S(4374),S(13122)),List(S(39366),List(F(6),F(18))))");
("5s4f_191.dat", "List(List(F(162),List(F(54),List(S(39366),List(F(6),F(18))))),List(S(486),S(1458)),List(S(4374),S(13122)))");
("5s4f_192.dat", "List(List(F(54),List(S(486),S(1458))),List(F(162),List(S(4374),S(13122))),List(S(39366),List(F(6),F(18))))");
("5s4f_193.dat", "List(List(F(54),List(S(486),S(1458))),List(F(162),List(S(39366),List(F(6),F(18)))),List(S(4374),S(13122)))");
("5s4f_194.dat", "List(List(F(6),F(18)),List(S(4374),S(13122)),List(S(39366),List(F(162),List(F(54),List(S(486),S(1458))))))");
("5s4f_195.dat", "List(List(F(6),F(18)),List(F(162),List(F(54),List(S(486),S(1458)))),List(S(39366),List(S(4374),S(13122))))");
("5s4f_196.dat", "List(List(F(6),F(18)),List(F(162),List(F(54),List(S(39366),List(S(486),S(1458))))),List(S(4374),S(13122)))");
("5s4f_197.dat", "List(List(F(6),F(18)),List(F(162),List(S(4374),S(13122))),List(S(39366),List(F(54),List(S(486),S(1458)))))");
("5s4f_198.dat", "List(List(F(6),F(18)),List(F(162),List(S(39366),List(F(54),List(S(486),S(1458))))),List(S(4374),S(13122)))");
("5s4f_199.dat", "List(List(F(6),F(18)),List(F(54),List(S(486),S(1458))),List(F(162),List(S(39366),List(S(4374),S(13122)))))");
("5s4f_2.dat", "List(S(39366),List(F(54),F(162)),List(S(486),S(1458)),List(S(4374),S(13122),List(F(6),F(18))))");
("5s4f_20.dat", "List(S(39366),List(F(54),F(162)),List(S(4374),List(F(6),F(18))),List(S(13122),List(S(486),S(1458))))");
("5s4f_200.dat", "List(S(39366),List(S(4374),List(F(162),List(F(54),List(F(6),F(18))))),List(S(13122),List(S(486),S(1458))))");
("5s4f_201.dat", "List(S(39366),List(S(4374),List(F(54),List(F(6),F(18)))),List(S(13122),List(F(162),List(S(486),S(1458)))))");
("5s4f_202.dat", "List(S(39366),List(S(486),S(1458)),List(S(13122),List(F(162),List(S(4374),List(F(54),List(F(6),F(18)))))))");
("5s4f_203.dat", "List(S(39366),List(F(162),List(S(13122),List(S(486),S(1458)))),List(S(4374),List(F(54),List(F(6),F(18)))))");
("5s4f_204.dat", "List(S(39366),List(S(4374),List(F(6),F(18))),List(S(13122),List(F(162),List(F(54),List(S(486),S(1458))))))");
("5s4f_205.dat", "List(S(39366),List(S(486),S(1458)),List(S(13122),List(F(162),List(F(54),List(S(4374),List(F(6),F(18)))))))");
("5s4f_206.dat", "List(S(39366),List(F(162),List(F(54),List(S(13122),List(S(486),S(1458))))),List(S(4374),List(F(6),F(18))))");
("5s4f_207.dat", "List(S(39366),List(F(162),List(S(4374),List(F(6),F(18)))),List(S(13122),List(F(54),List(S(486),S(1458)))))");
("5s4f_208.dat", "List(S(39366),List(F(162),List(S(13122),List(F(54),List(S(486),S(1458))))),List(S(4374),List(F(6),F(18))))");
("5s4f_209.dat", "List(S(39366),List(F(162),List(S(13122),List(F(54),List(S(4374),List(F(6),F(18)))))),List(S(486),S(1458)))");
("5s4f_21.dat", "List(S(39366),List(F(54),F(162)),List(S(486),S(1458)),List(S(13122),List(S(4374),List(F(6),F(18)))))");
("5s4f_210.dat", "List(List(F(162),S(13122)),List(S(39366),List(F(6),S(486))),List(List(F(18),S(1458)),List(F(54),S(4374))))");
("5s4f_211.dat", "List(List(F(54),S(4374)),List(F(162),S(13122)),List(S(39366),List(List(F(6),S(486)),List(F(18),S(1458)))))");
("5s4f_212.dat", "List(List(F(162),List(F(6),S(486))),List(S(13122),S(39366)),List(List(F(18),S(1458)),List(F(54),S(4374))))");
("5s4f_213.dat", "List(List(F(54),S(4374)),List(S(13122),S(39366)),List(List(F(18),S(1458)),List(F(162),List(F(6),S(486)))))");
("5s4f_214.dat", "List(List(F(54),S(4374)),List(F(162),List(S(13122),S(39366))),List(List(F(6),S(486)),List(F(18),S(1458))))");
("5s4f_215.dat", "List(List(F(54),S(4374)),List(F(162),List(List(F(6),S(486)),List(F(18),S(1458)))),List(S(13122),S(39366)))");
("5s4f_216.dat", "List(List(F(162),List(F(6),S(486))),List(S(13122),List(F(18),S(1458))),List(S(39366),List(F(54),S(4374))))");
("5s4f_217.dat", "List(List(F(54),S(4374)),List(S(13122),List(F(18),S(1458))),List(S(39366),List(F(162),List(F(6),S(486)))))");
("5s4f_218.dat", "List(List(F(54),S(4374)),List(F(162),List(F(6),S(486))),List(S(39366),List(S(13122),List(F(18),S(1458)))))");
("5s4f_219.dat", "List(List(F(18),S(1458)),List(F(54),S(4374)),List(S(39366),List(S(13122),List(F(162),List(F(6),S(486))))))");
("5s4f_22.dat", "List(S(39366),List(F(6),F(18)),List(F(54),F(162)),List(S(13122),List(S(4374),List(S(486),S(1458)))))");
("5s4f_220.dat", "List(List(F(54),S(4374)),List(F(162),List(S(13122),List(F(6),S(486)))),List(S(39366),List(F(18),S(1458))))");
("5s4f_221.dat", "List(List(F(18),S(1458)),List(F(54),S(4374)),List(S(39366),List(F(162),List(S(13122),List(F(6),S(486))))))");
("5s4f_222.dat", "List(List(F(18),S(1458)),List(F(54),S(4374)),List(F(162),List(S(39366),List(S(13122),List(F(6),S(486))))))");
("5s4f_223.dat", "List(List(F(162),List(F(18),S(1458))),List(S(4374),S(13122)),List(S(39366),List(F(54),List(F(6),S(486)))))");
("5s4f_224.dat", "List(List(F(54),List(F(6),S(486))),List(F(162),List(F(18),S(1458))),List(S(39366),List(S(4374),S(13122))))");
("5s4f_225.dat", "List(List(F(162),List(F(54),List(F(6),S(486)))),List(S(4374),S(13122)),List(S(39366),List(F(18),S(1458))))");
("5s4f_226.dat", "List(List(F(54),List(F(6),S(486))),List(F(162),List(S(4374),S(13122))),List(S(39366),List(F(18),S(1458))))");
("5s4f_227.dat", "List(List(F(54),List(F(6),S(486))),List(F(162),List(S(39366),List(F(18),S(1458)))),List(S(4374),S(13122)))");
("5s4f_228.dat", "List(List(F(18),S(1458)),List(S(4374),S(13122)),List(S(39366),List(F(162),List(F(54),List(F(6),S(486))))))");
("5s4f_229.dat", "List(List(F(18),S(1458)),List(F(162),List(F(54),List(F(6),S(486)))),List(S(39366),List(S(4374),S(13122))))");
("5s4f_23.dat", "List(List(F(54),F(162)),List(S(486),S(1458)),List(S(13122),S(39366),List(S(4374),List(F(6),F(18)))))");
("5s4f_230.dat", "List(List(F(18),S(1458)),List(F(162),List(S(4374),S(13122))),List(S(39366),List(F(54),List(F(6),S(486)))))");
("5s4f_231.dat", "List(List(F(18),S(1458)),List(F(162),List(S(39366),List(F(54),List(F(6),S(486))))),List(S(4374),S(13122)))");
("5s4f_232.dat", "List(List(F(18),S(1458)),List(F(54),List(F(6),S(486))),List(S(39366),List(F(162),List(S(4374),S(13122)))))");
("5s4f_233.dat", "List(List(F(18),S(1458)),List(F(54),List(F(6),S(486))),List(F(162),List(S(39366),List(S(4374),S(13122)))))");
("5s4f_234.dat", "List(List(F(18),S(1458)),List(F(162),List(F(54),List(S(4374),S(13122)))),List(S(39366),List(F(6),S(486))))");
("5s4f_235.dat", "List(List(F(18),S(1458)),List(F(162),List(F(54),List(S(39366),List(F(6),S(486))))),List(S(4374),S(13122)))");
("5s4f_236.dat", "List(List(F(18),S(1458)),List(F(54),List(S(4374),S(13122))),List(F(162),List(S(39366),List(F(6),S(486)))))");
("5s4f_237.dat", "List(List(F(6),S(486)),List(F(18),S(1458)),List(S(39366),List(F(162),List(F(54),List(S(4374),S(13122))))))");
("5s4f_238.dat", "List(List(F(6),S(486)),List(F(18),S(1458)),List(F(162),List(F(54),List(S(39366),List(S(4374),S(13122))))))");
("5s4f_239.dat", "List(List(F(6),S(486)),List(F(18),S(1458)),List(F(162),List(S(39366),List(F(54),List(S(4374),S(13122))))))");
("5s4f_24.dat", "List(List(F(54),F(162)),List(S(4374),List(F(6),F(18))),List(S(13122),S(39366),List(S(486),S(1458))))");
("5s4f_240.dat", "List(S(39366),List(S(4374),List(F(54),List(F(6),S(486)))),List(S(13122),List(F(162),List(F(18),S(1458)))))");
("5s4f_241.dat", "List(S(39366),List(S(4374),List(F(18),S(1458))),List(S(13122),List(F(162),List(F(54),List(F(6),S(486))))))");
("5s4f_242.dat", "List(S(39366),List(F(162),List(S(4374),List(F(18),S(1458)))),List(S(13122),List(F(54),List(F(6),S(486)))))");
("5s4f_243.dat", "List(S(39366),List(F(162),List(S(13122),List(F(54),List(F(6),S(486))))),List(S(4374),List(F(18),S(1458))))");
("5s4f_244.dat", "List(S(39366),List(F(162),List(F(54),List(S(4374),List(F(6),S(486))))),List(S(13122),List(F(18),S(1458))))");
("5s4f_245.dat", "List(S(39366),List(F(54),List(S(4374),List(F(6),S(486)))),List(F(162),List(S(13122),List(F(18),S(1458)))))");
("5s4f_246.dat", "List(List(F(162),List(F(54),List(F(18),List(F(6),S(486))))),List(S(1458),S(4374)),List(S(13122),S(39366)))");
("5s4f_247.dat", "List(List(F(54),List(F(18),List(F(6),S(486)))),List(F(162),List(S(1458),S(4374))),List(S(13122),S(39366)))");
("5s4f_248.dat", "List(List(F(18),List(F(6),S(486))),List(F(162),List(F(54),List(S(1458),S(4374)))),List(S(13122),S(39366)))");
("5s4f_249.dat", "List(List(F(18),List(F(6),S(486))),List(F(54),List(S(1458),S(4374))),List(F(162),List(S(13122),S(39366))))");
("5s4f_25.dat", "List(List(S(486),S(1458)),List(S(4374),List(F(6),F(18))),List(S(13122),S(39366),List(F(54),F(162))))");
("5s4f_250.dat", "List(List(F(6),S(486)),List(F(162),List(F(18),List(F(54),List(S(1458),S(4374))))),List(S(13122),S(39366)))");
("5s4f_251.dat", "List(List(F(6),S(486)),List(F(54),List(F(18),List(S(1458),S(4374)))),List(F(162),List(S(13122),S(39366))))");
("5s4f_252.dat", "List(S(39366),List(S(1458),S(4374)),List(S(13122),List(F(162),List(F(54),List(F(18),List(F(6),S(486)))))))");
("5s4f_253.dat", "List(S(39366),List(F(162),List(S(1458),S(4374))),List(S(13122),List(F(54),List(F(18),List(F(6),S(486))))))");
("5s4f_254.dat", "List(S(39366),List(F(162),List(S(13122),List(F(54),List(F(18),List(F(6),S(486)))))),List(S(1458),S(4374)))");
("5s4f_255.dat", "List(S(39366),List(F(162),List(F(54),List(S(1458),S(4374)))),List(S(13122),List(F(18),List(F(6),S(486)))))");
("5s4f_256.dat", "List(S(39366),List(F(162),List(F(54),List(S(13122),List(F(18),List(F(6),S(486)))))),List(S(1458),S(4374)))");
("5s4f_257.dat", "List(S(39366),List(F(54),List(S(1458),S(4374))),List(F(162),List(S(13122),List(F(18),List(F(6),S(486))))))");
("5s4f_258.dat", "List(S(39366),List(F(162),List(F(18),List(F(54),List(S(1458),S(4374))))),List(S(13122),List(F(6),S(486))))");
("5s4f_259.dat", "List(S(39366),List(F(162),List(F(18),List(F(54),List(S(13122),List(F(6),S(486)))))),List(S(1458),S(4374)))");
("5s4f_26.dat", "List(List(F(6),F(18)),List(F(54),F(162)),List(S(13122),S(39366),List(S(4374),List(S(486),S(1458)))))");
("5s4f_260.dat", "List(S(39366),List(F(54),List(F(18),List(S(1458),S(4374)))),List(F(162),List(S(13122),List(F(6),S(486)))))");
("5s4f_261.dat", "List(S(39366),List(F(54),List(F(18),List(S(13122),List(F(6),S(486))))),List(F(162),List(S(1458),S(4374))))");
("5s4f_262.dat", "List(S(39366),List(F(162),List(F(18),List(F(6),List(F(54),List(S(486),S(1458)))))),List(S(4374),S(13122)))");
("5s4f_263.dat", "List(S(39366),List(F(54),List(F(6),List(F(18),List(S(486),S(1458))))),List(F(162),List(S(4374),S(13122))))");
("5s4f_264.dat", "List(S(39366),List(F(18),List(F(6),List(S(486),S(1458)))),List(F(162),List(F(54),List(S(4374),S(13122)))))");
("5s4f_27.dat", "List(List(F(6),F(18)),List(F(54),F(162)),List(S(4374),List(S(13122),S(39366),List(S(486),S(1458)))))");
("5s4f_28.dat", "List(List(F(6),F(18)),List(S(4374),List(S(486),S(1458))),List(S(13122),S(39366),List(F(54),F(162))))");
("5s4f_29.dat", "List(List(F(6),F(18)),List(S(486),S(1458)),List(S(4374),List(S(13122),S(39366),List(F(54),F(162)))))");
("5s4f_3.dat", "List(S(39366),List(F(6),F(18)),List(F(54),F(162)),List(S(4374),S(13122),List(S(486),S(1458))))");
("5s4f_30.dat", "List(List(S(486),S(1458)),List(List(F(6),F(18)),List(F(54),F(162))),List(S(4374),S(13122),S(39366)))");
("5s4f_31.dat", "List(List(F(54),F(162)),List(List(F(6),F(18)),List(S(486),S(1458))),List(S(4374),S(13122),S(39366)))");
("5s4f_32.dat", "List(S(13122),S(39366),List(S(1458),List(F(54),F(162))),List(S(4374),List(S(486),List(F(6),F(18)))))");
("5s4f_33.dat", "List(S(13122),S(39366),List(F(54),F(162)),List(S(4374),List(S(1458),List(S(486),List(F(6),F(18))))))");
("5s4f_34.dat", "List(List(S(486),List(F(6),F(18))),List(S(1458),List(F(54),F(162))),List(S(4374),S(13122),S(39366)))");
("5s4f_35.dat", "List(List(F(54),F(162)),List(S(1458),List(S(486),List(F(6),F(18)))),List(S(4374),S(13122),S(39366)))");
("5s4f_36.dat", "List(List(F(54),F(162)),List(S(486),List(F(6),F(18))),List(S(1458),List(S(4374),S(13122),S(39366))))");
("5s4f_37.dat", "List(List(F(6),F(18)),List(F(54),F(162)),List(S(486),List(S(1458),List(S(4374),S(13122),S(39366)))))");
("5s4f_38.dat", "List(List(F(54),S(486)),List(F(162),S(1458)),List(S(39366),List(F(6),F(18)),List(S(4374),S(13122))))");
("5s4f_39.dat", "List(List(F(54),S(486)),List(F(162),S(1458)),List(S(13122),S(39366),List(S(4374),List(F(6),F(18)))))");
("5s4f_4.dat", "List(S(39366),List(F(54),F(162)),List(S(486),List(F(6),F(18))),List(S(1458),S(4374),S(13122)))");
("5s4f_40.dat", "List(List(F(162),S(1458)),List(S(4374),List(F(54),S(486))),List(S(13122),S(39366),List(F(6),F(18))))");
("5s4f_41.dat", "List(List(F(54),S(486)),List(F(162),S(1458)),List(S(4374),List(S(13122),S(39366),List(F(6),F(18)))))");
("5s4f_42.dat", "List(List(F(162),S(1458)),List(List(F(6),F(18)),List(F(54),S(486))),List(S(4374),S(13122),S(39366)))");
("5s4f_43.dat", "List(List(F(54),S(486)),List(F(162),S(1458)),List(List(F(6),F(18)),List(S(4374),S(13122),S(39366))))");
("5s4f_44.dat", "List(List(F(6),F(18)),List(F(162),List(F(54),S(486))),List(S(1458),S(4374)),List(S(13122),S(39366)))");
("5s4f_45.dat", "List(S(39366),List(F(162),List(F(54),S(486))),List(S(1458),S(4374)),List(S(13122),List(F(6),F(18))))");
("5s4f_46.dat", "List(S(39366),List(F(6),F(18)),List(S(1458),S(4374)),List(S(13122),List(F(162),List(F(54),S(486)))))");
("5s4f_47.dat", "List(S(39366),List(F(6),F(18)),List(F(162),List(F(54),S(486))),List(S(13122),List(S(1458),S(4374))))");
("5s4f_48.dat", "List(S(39366),List(F(6),F(18)),List(F(162),List(S(13122),List(F(54),S(486)))),List(S(1458),S(4374)))");
("5s4f_49.dat", "List(List(F(54),S(486)),List(F(162),List(F(6),F(18))),List(S(13122),S(39366),List(S(1458),S(4374))))");
("5s4f_5.dat", "List(S(39366),List(F(6),F(18)),List(F(54),F(162)),List(S(486),List(S(1458),S(4374),S(13122))))");
("5s4f_50.dat", "List(List(F(6),F(18)),List(F(162),List(F(54),S(486))),List(S(13122),S(39366),List(S(1458),S(4374))))");
("5s4f_51.dat", "List(List(F(6),F(18)),List(S(1458),S(4374)),List(S(13122),S(39366),List(F(162),List(F(54),S(486)))))");
("5s4f_52.dat", "List(List(F(6),F(18)),List(F(54),S(486)),List(F(162),List(S(13122),S(39366),List(S(1458),S(4374)))))");
("5s4f_53.dat", "List(List(F(162),List(F(54),S(486))),List(S(1458),S(4374)),List(S(13122),S(39366),List(F(6),F(18))))");
("5s4f_54.dat", "List(List(F(54),S(486)),List(F(162),List(S(1458),S(4374))),List(S(13122),S(39366),List(F(6),F(18))))");
("5s4f_55.dat", "List(List(F(54),S(486)),List(F(162),List(S(13122),S(39366),List(F(6),F(18)))),List(S(1458),S(4374)))");
("5s4f_56.dat", "List(S(13122),S(39366),List(S(1458),List(F(6),F(18))),List(S(4374),List(F(162),List(F(54),S(486)))))");
("5s4f_57.dat", "List(S(13122),S(39366),List(F(162),List(F(54),S(486))),List(S(4374),List(S(1458),List(F(6),F(18)))))");
("5s4f_58.dat", "List(S(13122),S(39366),List(F(162),List(S(4374),List(F(54),S(486)))),List(S(1458),List(F(6),F(18))))");
("5s4f_59.dat", "List(S(13122),S(39366),List(F(6),F(18)),List(S(4374),List(S(1458),List(F(162),List(F(54),S(486))))))");
("5s4f_6.dat", "List(S(13122),S(39366),List(S(486),List(F(6),F(18))),List(S(1458),S(4374),List(F(54),F(162))))");
("5s4f_60.dat", "List(S(13122),S(39366),List(F(6),F(18)),List(S(4374),List(F(162),List(S(1458),List(F(54),S(486))))))");
("5s4f_61.dat", "List(S(13122),S(39366),List(F(6),F(18)),List(F(162),List(S(4374),List(S(1458),List(F(54),S(486))))))");
("5s4f_62.dat", "List(List(F(162),List(F(6),F(18))),List(S(1458),List(F(54),S(486))),List(S(4374),S(13122),S(39366)))");
("5s4f_63.dat", "List(List(F(54),S(486)),List(S(1458),List(F(162),List(F(6),F(18)))),List(S(4374),S(13122),S(39366)))");
("5s4f_64.dat", "List(List(F(54),S(486)),List(F(162),List(F(6),F(18))),List(S(1458),List(S(4374),S(13122),S(39366))))");
("5s4f_65.dat", "List(List(F(162),List(F(54),S(486))),List(S(1458),List(F(6),F(18))),List(S(4374),S(13122),S(39366)))");
("5s4f_66.dat", "List(List(F(54),S(486)),List(F(162),List(S(1458),List(F(6),F(18)))),List(S(4374),S(13122),S(39366)))");
("5s4f_67.dat", "List(List(F(54),S(486)),List(F(162),List(S(4374),S(13122),S(39366))),List(S(1458),List(F(6),F(18))))");
("5s4f_68.dat", "List(List(F(6),F(18)),List(S(1458),List(F(162),List(F(54),S(486)))),List(S(4374),S(13122),S(39366)))");
("5s4f_69.dat", "List(List(F(6),F(18)),List(F(162),List(F(54),S(486))),List(S(1458),List(S(4374),S(13122),S(39366))))");
("5s4f_7.dat", "List(S(13122),S(39366),List(F(54),F(162)),List(S(486),List(S(1458),S(4374),List(F(6),F(18)))))");
("5s4f_70.dat", "List(List(F(6),F(18)),List(F(162),List(S(1458),List(F(54),S(486)))),List(S(4374),S(13122),S(39366)))");
("5s4f_71.dat", "List(List(F(6),F(18)),List(F(162),List(S(4374),S(13122),S(39366))),List(S(1458),List(F(54),S(486))))");
("5s4f_72.dat", "List(List(F(6),F(18)),List(F(54),S(486)),List(F(162),List(S(1458),List(S(4374),S(13122),S(39366)))))");
("5s4f_73.dat", "List(List(F(6),F(18)),List(F(54),S(486)),List(S(1458),List(F(162),List(S(4374),S(13122),S(39366)))))");
("5s4f_74.dat", "List(S(39366),List(F(162),List(F(54),List(F(6),F(18)))),List(S(486),S(1458)),List(S(4374),S(13122)))");
("5s4f_75.dat", "List(S(39366),List(F(6),F(18)),List(F(162),List(F(54),List(S(486),S(1458)))),List(S(4374),S(13122)))");
("5s4f_76.dat", "List(S(13122),S(39366),List(S(486),S(1458)),List(S(4374),List(F(162),List(F(54),List(F(6),F(18))))))");
("5s4f_77.dat", "List(S(13122),S(39366),List(F(162),List(F(54),List(F(6),F(18)))),List(S(4374),List(S(486),S(1458))))");
("5s4f_78.dat", "List(S(13122),S(39366),List(F(162),List(S(4374),List(F(54),List(F(6),F(18))))),List(S(486),S(1458)))");
("5s4f_79.dat", "List(S(13122),S(39366),List(F(162),List(F(54),List(S(486),S(1458)))),List(S(4374),List(F(6),F(18))))");
("5s4f_8.dat", "List(List(F(6),F(18)),List(F(54),F(162)),List(S(13122),S(39366),List(S(486),S(1458),S(4374))))");
("5s4f_80.dat", "List(S(13122),S(39366),List(F(162),List(F(54),List(S(4374),List(F(6),F(18))))),List(S(486),S(1458)))");
("5s4f_81.dat", "List(S(13122),S(39366),List(F(6),F(18)),List(S(4374),List(F(162),List(F(54),List(S(486),S(1458))))))");
("5s4f_82.dat", "List(S(13122),S(39366),List(F(6),F(18)),List(F(162),List(F(54),List(S(4374),List(S(486),S(1458))))))");
("5s4f_83.dat", "List(S(13122),S(39366),List(F(6),F(18)),List(F(162),List(S(4374),List(F(54),List(S(486),S(1458))))))");
("5s4f_84.dat", "List(List(F(162),List(F(54),List(F(6),F(18)))),List(S(486),S(1458)),List(S(4374),S(13122),S(39366)))");
("5s4f_85.dat", "List(List(F(54),List(F(6),F(18))),List(F(162),List(S(486),S(1458))),List(S(4374),S(13122),S(39366)))");
("5s4f_86.dat", "List(List(F(54),List(F(6),F(18))),List(F(162),List(S(4374),S(13122),S(39366))),List(S(486),S(1458)))");
("5s4f_87.dat", "List(List(F(6),F(18)),List(F(162),List(F(54),List(S(486),S(1458)))),List(S(4374),S(13122),S(39366)))");
("5s4f_88.dat", "List(List(F(6),F(18)),List(F(54),List(F(162),List(S(4374),S(13122),S(39366)))),List(S(486),S(1458)))");
("5s4f_89.dat", "List(List(F(6),F(18)),List(F(54),List(S(486),S(1458))),List(F(162),List(S(4374),S(13122),S(39366))))");
("5s4f_9.dat", "List(List(F(6),F(18)),List(S(486),S(1458),S(4374)),List(S(13122),S(39366),List(F(54),F(162))))");
("5s4f_90.dat", "List(S(4374),S(13122),S(39366),List(S(1458),List(S(486),List(F(162),List(F(54),List(F(6),F(18)))))))");
("5s4f_91.dat", "List(S(4374),S(13122),S(39366),List(S(1458),List(F(162),List(S(486),List(F(54),List(F(6),F(18)))))))");
("5s4f_92.dat", "List(S(4374),S(13122),S(39366),List(F(162),List(S(1458),List(S(486),List(F(54),List(F(6),F(18)))))))");
("5s4f_93.dat", "List(S(4374),S(13122),S(39366),List(S(1458),List(F(162),List(F(54),List(S(486),List(F(6),F(18)))))))");
("5s4f_94.dat", "List(S(4374),S(13122),S(39366),List(F(162),List(F(54),List(S(1458),List(S(486),List(F(6),F(18)))))))");
("5s4f_95.dat", "List(S(4374),S(13122),S(39366),List(F(162),List(S(1458),List(F(54),List(S(486),List(F(6),F(18)))))))");
("5s4f_96.dat", "List(List(F(18),S(1458)),List(F(54),S(4374)),List(S(13122),S(39366),List(F(162),List(F(6),S(486)))))");
("5s4f_97.dat", "List(S(39366),List(F(54),List(F(6),S(486))),List(F(162),List(F(18),S(1458))),List(S(4374),S(13122)))");
("5s4f_98.dat", "List(S(13122),S(39366),List(F(162),List(F(18),S(1458))),List(S(4374),List(F(54),List(F(6),S(486)))))");
("5s4f_99.dat", "List(S(13122),S(39366),List(F(54),List(F(6),S(486))),List(F(162),List(S(4374),List(F(18),S(1458)))))");
("6s0f_1.dat", "List(S(162),S(486),S(1458),List(S(6),S(18),S(54)))");
("6s0f_2.dat", "List(S(486),S(1458),List(S(6),S(18)),List(S(54),S(162)))");
("6s0f_3.dat", "List(S(162),S(486),S(1458),List(S(54),List(S(6),S(18))))");
("6s0f_4.dat", "List(List(S(6),S(18)),List(S(54),S(162)),List(S(486),S(1458)))");
("6s0f_5.dat", "List(S(1458),List(S(54),S(162)),List(S(486),List(S(6),S(18))))");
("6s2f_1.dat", "List(S(13122),List(F(6),F(18)),List(S(54),S(162)),List(S(486),S(1458),S(4374)))");
("6s2f_10.dat", "List(S(13122),List(F(6),F(18)),List(S(486),S(1458)),List(S(4374),List(S(54),S(162))))");
("6s2f_11.dat", "List(List(F(6),F(18)),List(S(54),S(162)),List(S(4374),S(13122),List(S(486),S(1458))))");
("6s2f_12.dat", "List(List(S(54),S(162)),List(S(486),S(1458)),List(S(4374),S(13122),List(F(6),F(18))))");
("6s2f_13.dat", "List(S(4374),S(13122),List(S(486),List(F(6),F(18))),List(S(1458),List(S(54),S(162))))");
("6s2f_14.dat", "List(S(4374),S(13122),List(S(54),S(162)),List(S(1458),List(S(486),List(F(6),F(18)))))");
("6s2f_15.dat", "List(S(4374),S(13122),List(F(6),F(18)),List(S(1458),List(S(486),List(S(54),S(162)))))");
("6s2f_16.dat", "List(List(S(54),S(162)),List(S(486),List(F(6),F(18))),List(S(1458),S(4374),S(13122)))");
("6s2f_17.dat", "List(List(F(6),F(18)),List(S(486),List(S(54),S(162))),List(S(1458),S(4374),S(13122)))");
("6s2f_18.dat", "List(List(F(6),F(18)),List(S(54),S(162)),List(S(486),List(S(1458),S(4374),S(13122))))");
("6s2f_19.dat", "List(S(1458),S(4374),S(13122),List(S(486),List(S(162),List(S(54),List(F(6),F(18))))))");
("6s2f_2.dat", "List(S(4374),S(13122),List(S(54),S(162)),List(S(486),S(1458),List(F(6),F(18))))");
("6s2f_20.dat", "List(List(F(6),S(54)),List(F(18),S(162)),List(S(4374),S(13122),List(S(486),S(1458))))");
("6s2f_21.dat", "List(List(F(18),S(162)),List(S(486),List(F(6),S(54))),List(S(1458),S(4374),S(13122)))");
("6s2f_22.dat", "List(List(F(6),S(54)),List(F(18),S(162)),List(S(486),List(S(1458),S(4374),S(13122))))");
("6s2f_23.dat", "List(S(13122),List(F(18),List(F(6),S(54))),List(S(162),S(486)),List(S(1458),S(4374)))");
("6s2f_24.dat", "List(S(4374),S(13122),List(S(162),S(486)),List(S(1458),List(F(18),List(F(6),S(54)))))");
("6s2f_25.dat", "List(S(4374),S(13122),List(F(18),List(F(6),S(54))),List(S(1458),List(S(162),S(486))))");
("6s2f_26.dat", "List(S(4374),S(13122),List(F(18),List(S(1458),List(F(6),S(54)))),List(S(162),S(486)))");
("6s2f_27.dat", "List(List(F(18),List(F(6),S(54))),List(S(162),S(486)),List(S(1458),S(4374),S(13122)))");
("6s2f_28.dat", "List(List(F(6),S(54)),List(F(18),List(S(162),S(486))),List(S(1458),S(4374),S(13122)))");
("6s2f_29.dat", "List(List(F(6),S(54)),List(F(18),List(S(1458),S(4374),S(13122))),List(S(162),S(486)))");
("6s2f_3.dat", "List(S(4374),S(13122),List(S(54),List(F(6),F(18))),List(S(162),S(486),S(1458)))");
("6s2f_30.dat", "List(S(1458),S(4374),S(13122),List(S(486),List(S(162),List(F(18),List(F(6),S(54))))))");
("6s2f_31.dat", "List(S(1458),S(4374),S(13122),List(S(486),List(F(18),List(S(162),List(F(6),S(54))))))");
("6s2f_32.dat", "List(S(1458),S(4374),S(13122),List(F(18),List(S(486),List(S(162),List(F(6),S(54))))))");
("6s2f_33.dat", "List(S(4374),S(13122),List(F(18),List(F(6),List(S(54),S(162)))),List(S(486),S(1458)))");
("6s2f_34.dat", "List(S(1458),S(4374),S(13122),List(S(486),List(F(18),List(F(6),List(S(54),S(162))))))");
("6s2f_35.dat", "List(S(1458),S(4374),S(13122),List(F(18),List(F(6),List(S(486),List(S(54),S(162))))))");
("6s2f_36.dat", "List(S(1458),S(4374),S(13122),List(F(18),List(S(486),List(F(6),List(S(54),S(162))))))");
("6s2f_37.dat", "List(List(S(486),S(1458)),List(S(4374),S(13122)),List(List(F(6),F(18)),List(S(54),S(162))))");
("6s2f_38.dat", "List(List(S(486),S(1458)),List(S(4374),List(F(6),F(18))),List(S(13122),List(S(54),S(162))))");
("6s2f_39.dat", "List(List(S(54),S(162)),List(S(486),S(1458)),List(S(13122),List(S(4374),List(F(6),F(18)))))");
("6s2f_4.dat", "List(S(4374),S(13122),List(F(6),F(18)),List(S(54),List(S(162),S(486),S(1458))))");
("6s2f_40.dat", "List(List(F(6),F(18)),List(S(4374),List(S(54),S(162))),List(S(13122),List(S(486),S(1458))))");
("6s2f_41.dat", "List(List(F(6),F(18)),List(S(486),S(1458)),List(S(13122),List(S(4374),List(S(54),S(162)))))");
("6s2f_42.dat", "List(S(13122),List(S(1458),List(S(54),S(162))),List(S(4374),List(S(486),List(F(6),F(18)))))");
("6s2f_43.dat", "List(List(S(486),S(1458)),List(S(4374),S(13122)),List(List(F(6),S(54)),List(F(18),S(162))))");
("6s2f_44.dat", "List(List(F(18),S(162)),List(S(4374),S(13122)),List(List(F(6),S(54)),List(S(486),S(1458))))");
("6s2f_45.dat", "List(List(S(486),S(1458)),List(S(4374),List(F(6),S(54))),List(S(13122),List(F(18),S(162))))");
("6s2f_46.dat", "List(List(F(18),S(162)),List(S(4374),List(F(6),S(54))),List(S(13122),List(S(486),S(1458))))");
("6s2f_47.dat", "List(List(F(18),S(162)),List(S(486),S(1458)),List(S(13122),List(S(4374),List(F(6),S(54)))))");
("6s2f_48.dat", "List(List(F(6),S(54)),List(F(18),S(162)),List(S(13122),List(S(4374),List(S(486),S(1458)))))");
("6s2f_49.dat", "List(S(13122),List(S(1458),List(F(18),S(162))),List(S(4374),List(S(486),List(F(6),S(54)))))");
("6s2f_5.dat", "List(List(F(6),F(18)),List(S(54),S(162),S(486)),List(S(1458),S(4374),S(13122)))");
("6s2f_50.dat", "List(List(S(162),S(486)),List(S(1458),S(4374)),List(S(13122),List(F(18),List(F(6),S(54)))))");
("6s2f_51.dat", "List(List(F(18),List(F(6),S(54))),List(S(1458),S(4374)),List(S(13122),List(S(162),S(486))))");
("6s2f_52.dat", "List(List(F(18),List(S(162),S(486))),List(S(1458),S(4374)),List(S(13122),List(F(6),S(54))))");
("6s2f_53.dat", "List(List(F(18),List(S(13122),List(F(6),S(54)))),List(S(162),S(486)),List(S(1458),S(4374)))");
("6s2f_54.dat", "List(List(F(6),S(54)),List(S(1458),S(4374)),List(S(13122),List(F(18),List(S(162),S(486)))))");
("6s2f_55.dat", "List(List(F(6),S(54)),List(F(18),List(S(162),S(486))),List(S(13122),List(S(1458),S(4374))))");
("6s2f_56.dat", "List(List(F(6),S(54)),List(F(18),List(S(13122),List(S(162),S(486)))),List(S(1458),S(4374)))");
("6s2f_57.dat", "List(S(13122),List(S(1458),List(F(18),List(F(6),S(54)))),List(S(4374),List(S(162),S(486))))");
("6s2f_58.dat", "List(S(13122),List(S(1458),List(F(6),S(54))),List(S(4374),List(F(18),List(S(162),S(486)))))");
("6s2f_59.dat", "List(S(13122),List(S(162),S(486)),List(S(4374),List(F(18),List(S(1458),List(F(6),S(54))))))");
("6s2f_6.dat", "List(S(4374),S(13122),List(F(18),List(F(6),S(54))),List(S(162),S(486),S(1458)))");
("6s2f_60.dat", "List(S(13122),List(F(18),List(S(4374),List(S(162),S(486)))),List(S(1458),List(F(6),S(54))))");
("6s2f_61.dat", "List(List(F(18),List(F(6),List(S(54),S(162)))),List(S(486),S(1458)),List(S(4374),S(13122)))");
("6s2f_62.dat", "List(List(F(6),List(S(54),S(162))),List(F(18),List(S(486),S(1458))),List(S(4374),S(13122)))");
("6s2f_63.dat", "List(S(13122),List(S(486),S(1458)),List(S(4374),List(F(18),List(F(6),List(S(54),S(162))))))");
("6s2f_64.dat", "List(S(13122),List(F(18),List(F(6),List(S(4374),List(S(54),S(162))))),List(S(486),S(1458)))");
("6s2f_65.dat", "List(S(13122),List(F(18),List(S(486),S(1458))),List(S(4374),List(F(6),List(S(54),S(162)))))");
("6s2f_66.dat", "List(S(13122),List(F(18),List(S(4374),List(F(6),List(S(54),S(162))))),List(S(486),S(1458)))");
("6s2f_7.dat", "List(S(1458),S(4374),S(13122),List(F(18),List(F(6),List(S(54),S(162),S(486)))))");
("6s2f_8.dat", "List(List(F(6),F(18)),List(S(54),S(162)),List(S(486),S(1458)),List(S(4374),S(13122)))");
("6s2f_9.dat", "List(S(13122),List(S(54),S(162)),List(S(486),S(1458)),List(S(4374),List(F(6),F(18))))")
].

Definition graphs_dir : list (string * string) := [
("0s4f_1.csv", "6,1944
18,1944
54,5832
162,5832
1944,5832
");
("0s6f_1.csv", "6,17496
18,17496
54,52488
162,52488
486,157464
1458,157464
17496,472392
52488,472392
157464,472392
");
("0s6f_2.csv", "6,17496
18,17496
54,52488
162,52488
486,157464
1458,472392
17496,157464
52488,472392
157464,472392
");
("1s4f_1.csv", "6,5832
18,5832
54,17496
162,17496
486,52488
5832,52488
17496,52488
");
("1s4f_2.csv", "6,5832
18,5832
54,17496
162,52488
486,17496
5832,52488
17496,52488
");
("2s2f_1.csv", "6,1944
18,1944
54,5832
162,5832
1944,5832
");
("2s2f_2.csv", "6,1944
18,5832
54,1944
162,5832
1944,5832
");
("2s4f_1.csv", "6,17496
18,17496
54,52488
162,52488
486,314928
1458,314928
17496,314928
52488,314928
");
("2s4f_2.csv", "6,17496
18,17496
54,52488
162,52488
486,157464
1458,157464
17496,472392
52488,472392
157464,472392
");
("2s4f_3.csv", "6,17496
18,17496
54,52488
162,52488
486,157464
1458,472392
17496,157464
52488,472392
157464,472392
");
("2s4f_4.csv", "6,17496
18,17496
54,52488
162,157464
486,52488
1458,157464
17496,472392
52488,472392
157464,472392
");
("2s4f_5.csv", "6,17496
18,17496
54,52488
162,157464
486,52488
1458,472392
17496,157464
52488,472392
157464,472392
");
("2s4f_6.csv", "6,17496
18,17496
54,52488
162,157464
486,52488
1458,472392
17496,472392
52488,157464
157464,472392
");
("2s4f_7.csv", "6,17496
18,17496
54,52488
162,157464
486,472392
1458,472392
17496,52488
52488,157464
157464,472392
");
("2s4f_8.csv", "6,17496
18,52488
54,157464
162,472392
486,17496
1458,52488
17496,157464
52488,472392
157464,472392
");
("2s6f_1.csv", "6,157464
18,157464
54,472392
162,472392
486,1417176
1458,1417176
4374,4251528
13122,4251528
157464,25509168
472392,25509168
1417176,25509168
4251528,25509168
");
("2s6f_10.csv", "6,157464
18,157464
54,472392
162,472392
486,1417176
1458,4251528
4374,1417176
13122,4251528
157464,12754584
472392,38263752
1417176,12754584
4251528,38263752
12754584,38263752
");
("2s6f_11.csv", "6,157464
18,157464
54,472392
162,472392
486,1417176
1458,4251528
4374,1417176
13122,12754584
157464,4251528
472392,12754584
1417176,38263752
4251528,38263752
12754584,38263752
");
("2s6f_12.csv", "6,157464
18,157464
54,472392
162,472392
486,1417176
1458,4251528
4374,1417176
13122,12754584
157464,4251528
472392,38263752
1417176,12754584
4251528,38263752
12754584,38263752
");
("2s6f_13.csv", "6,157464
18,157464
54,472392
162,472392
486,1417176
1458,4251528
4374,1417176
13122,12754584
157464,4251528
472392,38263752
1417176,38263752
4251528,12754584
12754584,38263752
");
("2s6f_14.csv", "6,157464
18,157464
54,472392
162,472392
486,1417176
1458,4251528
4374,1417176
13122,12754584
157464,12754584
472392,38263752
1417176,4251528
4251528,38263752
12754584,38263752
");
("2s6f_15.csv", "6,157464
18,157464
54,472392
162,472392
486,1417176
1458,4251528
4374,1417176
13122,12754584
157464,12754584
472392,38263752
1417176,38263752
4251528,12754584
4251528,38263752
");
("2s6f_16.csv", "6,157464
18,157464
54,472392
162,472392
486,1417176
1458,4251528
4374,1417176
13122,12754584
157464,38263752
472392,38263752
1417176,4251528
4251528,12754584
12754584,38263752
");
("2s6f_17.csv", "6,157464
18,157464
54,472392
162,472392
486,1417176
1458,4251528
4374,1417176
13122,12754584
157464,38263752
472392,38263752
1417176,12754584
4251528,12754584
4251528,38263752
");
("2s6f_18.csv", "6,157464
18,157464
54,472392
162,472392
486,1417176
1458,4251528
4374,12754584
13122,12754584
157464,1417176
472392,4251528
1417176,38263752
4251528,38263752
12754584,38263752
");
("2s6f_19.csv", "6,157464
18,157464
54,472392
162,472392
486,1417176
1458,4251528
4374,12754584
13122,12754584
157464,1417176
472392,38263752
1417176,4251528
4251528,38263752
12754584,38263752
");
("2s6f_2.csv", "6,157464
18,157464
54,472392
162,472392
486,1417176
1458,1417176
4374,4251528
13122,25509168
157464,4251528
472392,25509168
1417176,25509168
4251528,25509168
");
("2s6f_20.csv", "6,157464
18,157464
54,472392
162,472392
486,1417176
1458,4251528
4374,12754584
13122,12754584
157464,1417176
472392,38263752
1417176,38263752
4251528,12754584
4251528,38263752
");
("2s6f_21.csv", "6,157464
18,157464
54,472392
162,472392
486,1417176
1458,4251528
4374,12754584
13122,12754584
157464,38263752
472392,38263752
1417176,4251528
1417176,12754584
4251528,38263752
");
("2s6f_22.csv", "6,157464
18,157464
54,472392
162,472392
486,1417176
1458,4251528
4374,12754584
13122,38263752
157464,1417176
472392,4251528
1417176,12754584
4251528,38263752
12754584,38263752
");
("2s6f_23.csv", "6,157464
18,157464
54,472392
162,472392
486,1417176
1458,4251528
4374,12754584
13122,38263752
157464,1417176
472392,12754584
1417176,4251528
4251528,38263752
12754584,38263752
");
("2s6f_24.csv", "6,157464
18,157464
54,472392
162,472392
486,1417176
1458,4251528
4374,12754584
13122,38263752
157464,1417176
472392,12754584
1417176,38263752
4251528,12754584
4251528,38263752
");
("2s6f_25.csv", "6,157464
18,157464
54,472392
162,472392
486,1417176
1458,4251528
4374,12754584
13122,38263752
157464,12754584
472392,38263752
1417176,4251528
1417176,12754584
4251528,38263752
");
("2s6f_26.csv", "6,157464
18,157464
54,472392
162,1417176
486,4251528
1458,12754584
4374,472392
13122,1417176
157464,4251528
472392,12754584
1417176,38263752
4251528,38263752
12754584,38263752
");
("2s6f_27.csv", "6,157464
18,157464
54,472392
162,1417176
486,4251528
1458,12754584
4374,472392
13122,1417176
157464,4251528
472392,38263752
1417176,38263752
4251528,12754584
12754584,38263752
");
("2s6f_28.csv", "6,157464
18,157464
54,472392
162,1417176
486,4251528
1458,12754584
4374,472392
13122,1417176
157464,38263752
472392,4251528
1417176,12754584
4251528,38263752
12754584,38263752
");
("2s6f_29.csv", "6,157464
18,157464
54,472392
162,1417176
486,4251528
1458,12754584
4374,472392
13122,1417176
157464,38263752
472392,4251528
1417176,38263752
4251528,12754584
12754584,38263752
");
("2s6f_3.csv", "6,157464
18,157464
54,472392
162,472392
486,1417176
1458,1417176
4374,8503056
13122,8503056
157464,12754584
472392,12754584
1417176,8503056
12754584,8503056
");
("2s6f_30.csv", "6,157464
18,157464
54,472392
162,1417176
486,4251528
1458,12754584
4374,472392
13122,38263752
157464,1417176
472392,4251528
1417176,12754584
4251528,38263752
12754584,38263752
");
("2s6f_31.csv", "6,157464
18,157464
54,472392
162,1417176
486,4251528
1458,12754584
4374,472392
13122,38263752
157464,1417176
472392,4251528
1417176,38263752
4251528,12754584
12754584,38263752
");
("2s6f_32.csv", "6,157464
18,157464
54,472392
162,1417176
486,4251528
1458,12754584
4374,472392
13122,38263752
157464,1417176
472392,38263752
1417176,4251528
4251528,12754584
12754584,38263752
");
("2s6f_33.csv", "6,157464
18,157464
54,472392
162,1417176
486,4251528
1458,12754584
4374,472392
13122,38263752
157464,38263752
472392,1417176
1417176,4251528
4251528,12754584
12754584,38263752
");
("2s6f_34.csv", "6,157464
18,157464
54,472392
162,1417176
486,4251528
1458,12754584
4374,38263752
13122,38263752
157464,472392
472392,1417176
1417176,4251528
4251528,12754584
12754584,38263752
");
("2s6f_35.csv", "6,157464
18,472392
54,1417176
162,4251528
486,12754584
1458,38263752
4374,157464
13122,472392
157464,1417176
472392,4251528
1417176,12754584
4251528,38263752
12754584,38263752
");
("2s6f_4.csv", "6,157464
18,157464
54,472392
162,472392
486,1417176
1458,4251528
4374,1417176
13122,25509168
157464,25509168
472392,25509168
1417176,4251528
4251528,25509168
");
("2s6f_5.csv", "6,157464
18,157464
54,472392
162,472392
486,1417176
1458,4251528
4374,25509168
13122,25509168
157464,1417176
472392,25509168
1417176,4251528
4251528,25509168
");
("2s6f_6.csv", "6,157464
18,157464
54,472392
162,472392
486,1417176
1458,1417176
4374,4251528
13122,4251528
157464,12754584
472392,12754584
1417176,38263752
4251528,38263752
12754584,38263752
");
("2s6f_7.csv", "6,157464
18,157464
54,472392
162,472392
486,1417176
1458,1417176
4374,4251528
13122,12754584
157464,4251528
472392,12754584
1417176,38263752
4251528,38263752
12754584,38263752
");
("2s6f_8.csv", "6,157464
18,157464
54,472392
162,472392
486,1417176
1458,1417176
4374,4251528
13122,12754584
157464,4251528
472392,38263752
1417176,38263752
4251528,12754584
12754584,38263752
");
("2s6f_9.csv", "6,157464
18,157464
54,472392
162,472392
486,1417176
1458,4251528
4374,1417176
13122,4251528
157464,12754584
472392,12754584
1417176,38263752
4251528,38263752
12754584,38263752
");
("3s2f_1.csv", "6,5832
18,5832
54,34992
162,34992
486,34992
5832,34992
");
("3s2f_2.csv", "6,5832
18,5832
54,17496
162,17496
486,52488
5832,52488
17496,52488
");
("3s2f_3.csv", "6,5832
18,17496
54,5832
162,17496
486,52488
5832,52488
17496,52488
");
("3s2f_4.csv", "6,5832
18,17496
54,5832
162,52488
486,52488
5832,17496
17496,52488
");
("3s4f_1.csv", "6,52488
18,52488
54,157464
162,157464
486,472392
1458,472392
4374,2834352
52488,2834352
157464,2834352
472392,2834352
");
("3s4f_10.csv", "6,52488
18,52488
54,157464
162,472392
486,157464
1458,472392
4374,1417176
52488,4251528
157464,1417176
472392,4251528
1417176,4251528
");
("3s4f_11.csv", "6,52488
18,52488
54,157464
162,472392
486,157464
1458,1417176
4374,1417176
52488,472392
157464,4251528
472392,4251528
1417176,4251528
");
("3s4f_12.csv", "6,52488
18,52488
54,157464
162,472392
486,157464
1458,1417176
4374,1417176
52488,4251528
157464,472392
472392,4251528
1417176,4251528
");
("3s4f_13.csv", "6,52488
18,52488
54,157464
162,472392
486,157464
1458,1417176
4374,1417176
52488,4251528
157464,4251528
472392,1417176
472392,4251528
");
("3s4f_14.csv", "6,52488
18,52488
54,157464
162,472392
486,157464
1458,1417176
4374,4251528
52488,472392
157464,1417176
472392,4251528
1417176,4251528
");
("3s4f_15.csv", "6,52488
18,52488
54,157464
162,472392
486,157464
1458,1417176
4374,4251528
52488,1417176
157464,472392
472392,4251528
1417176,4251528
");
("3s4f_16.csv", "6,52488
18,52488
54,157464
162,472392
486,157464
1458,1417176
4374,4251528
52488,1417176
157464,4251528
472392,1417176
472392,4251528
");
("3s4f_17.csv", "6,52488
18,52488
54,157464
162,472392
486,1417176
1458,1417176
4374,4251528
52488,157464
157464,472392
472392,4251528
1417176,4251528
");
("3s4f_18.csv", "6,52488
18,52488
54,157464
162,472392
486,1417176
1458,1417176
4374,4251528
52488,157464
157464,4251528
472392,1417176
472392,4251528
");
("3s4f_19.csv", "6,52488
18,52488
54,157464
162,472392
486,1417176
1458,1417176
4374,4251528
52488,4251528
157464,472392
157464,1417176
472392,4251528
");
("3s4f_2.csv", "6,52488
18,52488
54,157464
162,157464
486,472392
1458,2834352
4374,2834352
52488,472392
157464,2834352
472392,2834352
");
("3s4f_20.csv", "6,52488
18,157464
54,472392
162,1417176
486,52488
1458,157464
4374,472392
52488,1417176
157464,4251528
472392,4251528
1417176,4251528
");
("3s4f_21.csv", "6,52488
18,157464
54,472392
162,1417176
486,52488
1458,157464
4374,4251528
52488,472392
157464,1417176
472392,4251528
1417176,4251528
");
("3s4f_22.csv", "6,52488
18,157464
54,472392
162,1417176
486,52488
1458,157464
4374,4251528
52488,472392
157464,4251528
472392,1417176
1417176,4251528
");
("3s4f_23.csv", "6,52488
18,157464
54,472392
162,1417176
486,52488
1458,4251528
4374,4251528
52488,157464
157464,472392
472392,1417176
1417176,4251528
");
("3s4f_3.csv", "6,52488
18,52488
54,157464
162,157464
486,944784
1458,944784
4374,944784
52488,1417176
157464,1417176
1417176,944784
");
("3s4f_4.csv", "6,52488
18,52488
54,157464
162,472392
486,157464
1458,2834352
4374,2834352
52488,2834352
157464,472392
472392,2834352
");
("3s4f_5.csv", "6,52488
18,52488
54,157464
162,472392
486,2834352
1458,2834352
4374,2834352
52488,157464
157464,472392
472392,2834352
");
("3s4f_6.csv", "6,52488
18,52488
54,157464
162,157464
486,472392
1458,472392
4374,1417176
52488,1417176
157464,4251528
472392,4251528
1417176,4251528
");
("3s4f_7.csv", "6,52488
18,52488
54,157464
162,157464
486,472392
1458,472392
4374,1417176
52488,4251528
157464,4251528
472392,1417176
1417176,4251528
");
("3s4f_8.csv", "6,52488
18,52488
54,157464
162,157464
486,472392
1458,1417176
4374,4251528
52488,472392
157464,1417176
472392,4251528
1417176,4251528
");
("3s4f_9.csv", "6,52488
18,52488
54,157464
162,472392
486,157464
1458,472392
4374,1417176
52488,1417176
157464,4251528
472392,4251528
1417176,4251528
");
("4s0f_1.csv", "6,1944
18,1944
54,5832
162,5832
1944,5832
");
("4s2f_1.csv", "6,17496
18,17496
54,52488
162,52488
486,314928
1458,314928
17496,314928
52488,314928
");
("4s2f_10.csv", "6,17496
18,52488
54,157464
162,157464
486,472392
1458,472392
17496,52488
17496,157464
52488,472392
");
("4s2f_2.csv", "6,17496
18,17496
54,52488
162,314928
486,314928
1458,314928
17496,52488
52488,314928
");
("4s2f_3.csv", "6,17496
18,52488
54,17496
162,314928
486,314928
1458,314928
17496,52488
52488,314928
");
("4s2f_4.csv", "6,17496
18,17496
54,52488
162,52488
486,157464
1458,157464
17496,472392
52488,472392
157464,472392
");
("4s2f_5.csv", "6,17496
18,17496
54,52488
162,52488
486,157464
1458,472392
17496,157464
52488,472392
157464,472392
");
("4s2f_6.csv", "6,17496
18,52488
54,17496
162,52488
486,157464
1458,157464
17496,472392
52488,472392
157464,472392
");
("4s2f_7.csv", "6,17496
18,52488
54,17496
162,52488
486,157464
1458,472392
17496,157464
52488,472392
157464,472392
");
("4s2f_8.csv", "6,17496
18,52488
54,17496
162,157464
486,157464
1458,472392
17496,52488
52488,472392
157464,472392
");
("4s2f_9.csv", "6,17496
18,52488
54,17496
162,157464
486,157464
1458,472392
17496,472392
52488,157464
52488,472392
");
("5s2f_1.csv", "6,52488
18,52488
54,314928
162,314928
486,314928
1458,944784
4374,944784
52488,944784
314928,944784
");
("5s2f_10.csv", "6,52488
18,157464
54,52488
162,472392
486,2834352
1458,2834352
4374,2834352
52488,472392
157464,472392
157464,2834352
");
("5s2f_11.csv", "6,52488
18,157464
54,472392
162,472392
486,2834352
1458,2834352
4374,2834352
52488,157464
52488,472392
157464,2834352
");
("5s2f_12.csv", "6,52488
18,52488
54,157464
162,157464
486,472392
1458,472392
4374,1417176
52488,1417176
157464,4251528
472392,4251528
1417176,4251528
");
("5s2f_13.csv", "6,52488
18,52488
54,157464
162,157464
486,472392
1458,472392
4374,1417176
52488,4251528
157464,1417176
472392,4251528
1417176,4251528
");
("5s2f_14.csv", "6,52488
18,52488
54,157464
162,157464
486,472392
1458,1417176
4374,4251528
52488,472392
157464,1417176
472392,4251528
1417176,4251528
");
("5s2f_15.csv", "6,52488
18,157464
54,52488
162,157464
486,472392
1458,472392
4374,1417176
52488,1417176
157464,4251528
472392,4251528
1417176,4251528
");
("5s2f_16.csv", "6,52488
18,157464
54,52488
162,157464
486,472392
1458,472392
4374,1417176
52488,4251528
157464,4251528
472392,1417176
1417176,4251528
");
("5s2f_17.csv", "6,52488
18,157464
54,52488
162,157464
486,472392
1458,1417176
4374,4251528
52488,472392
157464,1417176
472392,4251528
1417176,4251528
");
("5s2f_18.csv", "6,52488
18,157464
54,52488
162,472392
486,472392
1458,1417176
4374,1417176
52488,157464
157464,4251528
472392,4251528
1417176,4251528
");
("5s2f_19.csv", "6,52488
18,157464
54,52488
162,472392
486,472392
1458,1417176
4374,1417176
52488,4251528
157464,472392
157464,4251528
1417176,4251528
");
("5s2f_2.csv", "6,52488
18,52488
54,157464
162,157464
486,472392
1458,472392
4374,2834352
52488,2834352
157464,2834352
472392,2834352
");
("5s2f_20.csv", "6,52488
18,157464
54,52488
162,472392
486,472392
1458,1417176
4374,4251528
52488,157464
157464,1417176
472392,4251528
1417176,4251528
");
("5s2f_21.csv", "6,52488
18,157464
54,52488
162,472392
486,472392
1458,1417176
4374,4251528
52488,1417176
157464,472392
157464,4251528
1417176,4251528
");
("5s2f_22.csv", "6,52488
18,157464
54,52488
162,472392
486,472392
1458,1417176
4374,4251528
52488,1417176
157464,1417176
157464,4251528
472392,4251528
");
("5s2f_23.csv", "6,52488
18,157464
54,472392
162,472392
486,1417176
1458,1417176
4374,4251528
52488,157464
52488,472392
157464,4251528
1417176,4251528
");
("5s2f_24.csv", "6,52488
18,157464
54,472392
162,472392
486,1417176
1458,1417176
4374,4251528
52488,472392
52488,4251528
157464,1417176
157464,4251528
");
("5s2f_3.csv", "6,52488
18,52488
54,157464
162,157464
486,472392
1458,2834352
4374,2834352
52488,472392
157464,2834352
472392,2834352
");
("5s2f_4.csv", "6,52488
18,52488
54,157464
162,157464
486,472392
1458,2834352
4374,2834352
52488,2834352
157464,472392
472392,2834352
");
("5s2f_5.csv", "6,52488
18,52488
54,157464
162,157464
486,944784
1458,944784
4374,944784
52488,1417176
157464,1417176
1417176,944784
");
("5s2f_6.csv", "6,52488
18,52488
54,157464
162,472392
486,2834352
1458,2834352
4374,2834352
52488,157464
157464,472392
472392,2834352
");
("5s2f_7.csv", "6,52488
18,157464
54,52488
162,157464
486,944784
1458,944784
4374,944784
52488,1417176
157464,1417176
1417176,944784
");
("5s2f_8.csv", "6,52488
18,157464
54,52488
162,472392
486,472392
1458,2834352
4374,2834352
52488,157464
157464,2834352
472392,2834352
");
("5s2f_9.csv", "6,52488
18,157464
54,52488
162,472392
486,2834352
1458,2834352
4374,2834352
52488,157464
157464,472392
472392,2834352
");
("5s4f_1.csv", "6,472392
18,472392
54,1417176
162,1417176
486,4251528
1458,4251528
4374,25509168
13122,25509168
39366,25509168
472392,76527504
1417176,76527504
4251528,76527504
25509168,76527504
");
("5s4f_10.csv", "6,472392
18,472392
54,1417176
162,4251528
486,1417176
1458,25509168
4374,25509168
13122,25509168
39366,76527504
472392,76527504
1417176,4251528
4251528,76527504
25509168,76527504
");
("5s4f_100.csv", "6,472392
18,1417176
54,4251528
162,12754584
486,472392
1458,1417176
4374,76527504
13122,76527504
39366,76527504
472392,4251528
1417176,12754584
4251528,114791256
12754584,114791256
114791256,76527504
");
("5s4f_101.csv", "6,472392
18,1417176
54,4251528
162,12754584
486,472392
1458,1417176
4374,76527504
13122,76527504
39366,76527504
472392,4251528
1417176,114791256
4251528,12754584
12754584,114791256
114791256,76527504
");
("5s4f_102.csv", "6,472392
18,1417176
54,4251528
162,12754584
486,472392
1458,1417176
4374,76527504
13122,76527504
39366,76527504
472392,4251528
1417176,114791256
4251528,114791256
12754584,114791256
12754584,76527504
");
("5s4f_103.csv", "6,472392
18,1417176
54,4251528
162,12754584
486,472392
1458,1417176
4374,76527504
13122,76527504
39366,76527504
472392,114791256
1417176,114791256
4251528,12754584
4251528,114791256
12754584,76527504
");
("5s4f_104.csv", "6,472392
18,1417176
54,4251528
162,12754584
486,472392
1458,38263752
4374,38263752
13122,229582512
39366,229582512
472392,1417176
1417176,4251528
4251528,12754584
12754584,229582512
38263752,229582512
");
("5s4f_105.csv", "6,472392
18,1417176
54,4251528
162,12754584
486,472392
1458,38263752
4374,38263752
13122,229582512
39366,229582512
472392,1417176
1417176,229582512
4251528,12754584
4251528,38263752
12754584,229582512
");
("5s4f_106.csv", "6,472392
18,1417176
54,4251528
162,12754584
486,472392
1458,38263752
4374,229582512
13122,229582512
39366,229582512
472392,1417176
1417176,4251528
4251528,12754584
12754584,38263752
38263752,229582512
");
("5s4f_107.csv", "6,472392
18,1417176
54,4251528
162,12754584
486,472392
1458,38263752
4374,229582512
13122,229582512
39366,229582512
472392,1417176
1417176,4251528
4251528,38263752
12754584,38263752
12754584,229582512
");
("5s4f_108.csv", "6,472392
18,1417176
54,4251528
162,12754584
486,472392
1458,38263752
4374,229582512
13122,229582512
39366,229582512
472392,1417176
1417176,38263752
4251528,12754584
4251528,38263752
12754584,229582512
");
("5s4f_109.csv", "6,472392
18,1417176
54,4251528
162,12754584
486,472392
1458,38263752
4374,229582512
13122,229582512
39366,229582512
472392,38263752
1417176,4251528
1417176,12754584
4251528,38263752
12754584,229582512
");
("5s4f_11.csv", "6,472392
18,472392
54,1417176
162,4251528
486,1417176
1458,25509168
4374,25509168
13122,76527504
39366,76527504
472392,25509168
1417176,4251528
4251528,76527504
25509168,76527504
");
("5s4f_110.csv", "6,472392
18,1417176
54,4251528
162,12754584
486,38263752
1458,38263752
4374,229582512
13122,229582512
39366,229582512
472392,1417176
472392,4251528
1417176,12754584
4251528,38263752
12754584,229582512
");
("5s4f_111.csv", "6,472392
18,472392
54,1417176
162,1417176
486,4251528
1458,4251528
4374,12754584
13122,12754584
39366,38263752
472392,38263752
1417176,114791256
4251528,114791256
12754584,344373768
38263752,344373768
114791256,344373768
");
("5s4f_112.csv", "6,472392
18,472392
54,1417176
162,1417176
486,4251528
1458,4251528
4374,12754584
13122,12754584
39366,38263752
472392,38263752
1417176,114791256
4251528,344373768
12754584,344373768
38263752,114791256
114791256,344373768
");
("5s4f_113.csv", "6,472392
18,472392
54,1417176
162,1417176
486,4251528
1458,4251528
4374,12754584
13122,12754584
39366,38263752
472392,114791256
1417176,114791256
4251528,38263752
12754584,344373768
38263752,344373768
114791256,344373768
");
("5s4f_114.csv", "6,472392
18,472392
54,1417176
162,1417176
486,4251528
1458,4251528
4374,12754584
13122,12754584
39366,38263752
472392,114791256
1417176,114791256
4251528,344373768
12754584,344373768
38263752,114791256
38263752,344373768
");
("5s4f_115.csv", "6,472392
18,472392
54,1417176
162,1417176
486,4251528
1458,4251528
4374,12754584
13122,12754584
39366,38263752
472392,114791256
1417176,344373768
4251528,38263752
12754584,114791256
38263752,344373768
114791256,344373768
");
("5s4f_116.csv", "6,472392
18,472392
54,1417176
162,1417176
486,4251528
1458,4251528
4374,12754584
13122,12754584
39366,38263752
472392,114791256
1417176,344373768
4251528,114791256
12754584,344373768
38263752,114791256
38263752,344373768
");
("5s4f_117.csv", "6,472392
18,472392
54,1417176
162,1417176
486,4251528
1458,4251528
4374,12754584
13122,38263752
39366,114791256
472392,12754584
1417176,38263752
4251528,114791256
12754584,344373768
38263752,344373768
114791256,344373768
");
("5s4f_118.csv", "6,472392
18,472392
54,1417176
162,1417176
486,4251528
1458,4251528
4374,12754584
13122,38263752
39366,114791256
472392,12754584
1417176,38263752
4251528,344373768
12754584,114791256
38263752,344373768
114791256,344373768
");
("5s4f_119.csv", "6,472392
18,472392
54,1417176
162,1417176
486,4251528
1458,4251528
4374,12754584
13122,38263752
39366,114791256
472392,12754584
1417176,344373768
4251528,38263752
12754584,114791256
38263752,344373768
114791256,344373768
");
("5s4f_12.csv", "6,472392
18,472392
54,1417176
162,4251528
486,25509168
1458,25509168
4374,25509168
13122,76527504
39366,76527504
472392,1417176
1417176,4251528
4251528,76527504
25509168,76527504
");
("5s4f_120.csv", "6,472392
18,472392
54,1417176
162,1417176
486,4251528
1458,4251528
4374,12754584
13122,38263752
39366,114791256
472392,12754584
1417176,344373768
4251528,38263752
12754584,344373768
38263752,114791256
114791256,344373768
");
("5s4f_121.csv", "6,472392
18,472392
54,1417176
162,1417176
486,4251528
1458,4251528
4374,12754584
13122,38263752
39366,114791256
472392,12754584
1417176,344373768
4251528,344373768
12754584,38263752
38263752,114791256
114791256,344373768
");
("5s4f_122.csv", "6,472392
18,472392
54,1417176
162,1417176
486,4251528
1458,4251528
4374,12754584
13122,38263752
39366,114791256
472392,344373768
1417176,344373768
4251528,12754584
12754584,38263752
38263752,114791256
114791256,344373768
");
("5s4f_123.csv", "6,472392
18,472392
54,1417176
162,1417176
486,4251528
1458,12754584
4374,38263752
13122,114791256
39366,344373768
472392,4251528
1417176,12754584
4251528,38263752
12754584,114791256
38263752,344373768
114791256,344373768
");
("5s4f_124.csv", "6,472392
18,472392
54,1417176
162,4251528
486,1417176
1458,4251528
4374,12754584
13122,12754584
39366,38263752
472392,38263752
1417176,114791256
4251528,114791256
12754584,344373768
38263752,344373768
114791256,344373768
");
("5s4f_125.csv", "6,472392
18,472392
54,1417176
162,4251528
486,1417176
1458,4251528
4374,12754584
13122,12754584
39366,38263752
472392,38263752
1417176,114791256
4251528,344373768
12754584,114791256
38263752,344373768
114791256,344373768
");
("5s4f_126.csv", "6,472392
18,472392
54,1417176
162,4251528
486,1417176
1458,4251528
4374,12754584
13122,12754584
39366,38263752
472392,114791256
1417176,38263752
4251528,114791256
12754584,344373768
38263752,344373768
114791256,344373768
");
("5s4f_127.csv", "6,472392
18,472392
54,1417176
162,4251528
486,1417176
1458,4251528
4374,12754584
13122,12754584
39366,38263752
472392,114791256
1417176,38263752
4251528,344373768
12754584,114791256
38263752,344373768
114791256,344373768
");
("5s4f_128.csv", "6,472392
18,472392
54,1417176
162,4251528
486,1417176
1458,4251528
4374,12754584
13122,12754584
39366,38263752
472392,114791256
1417176,38263752
4251528,344373768
12754584,344373768
38263752,114791256
114791256,344373768
");
("5s4f_129.csv", "6,472392
18,472392
54,1417176
162,4251528
486,1417176
1458,4251528
4374,12754584
13122,12754584
39366,38263752
472392,114791256
1417176,114791256
4251528,344373768
12754584,38263752
38263752,344373768
114791256,344373768
");
("5s4f_13.csv", "6,472392
18,472392
54,1417176
162,4251528
486,25509168
1458,25509168
4374,25509168
13122,76527504
39366,76527504
472392,76527504
1417176,4251528
1417176,25509168
4251528,76527504
");
("5s4f_130.csv", "6,472392
18,472392
54,1417176
162,4251528
486,1417176
1458,4251528
4374,12754584
13122,12754584
39366,38263752
472392,114791256
1417176,114791256
4251528,344373768
12754584,344373768
38263752,114791256
38263752,344373768
");
("5s4f_131.csv", "6,472392
18,472392
54,1417176
162,4251528
486,1417176
1458,4251528
4374,12754584
13122,12754584
39366,38263752
472392,114791256
1417176,344373768
4251528,344373768
12754584,38263752
38263752,114791256
114791256,344373768
");
("5s4f_132.csv", "6,472392
18,472392
54,1417176
162,4251528
486,1417176
1458,4251528
4374,12754584
13122,12754584
39366,38263752
472392,114791256
1417176,344373768
4251528,344373768
12754584,114791256
38263752,114791256
38263752,344373768
");
("5s4f_133.csv", "6,472392
18,472392
54,1417176
162,4251528
486,1417176
1458,4251528
4374,12754584
13122,38263752
39366,114791256
472392,12754584
1417176,38263752
4251528,114791256
12754584,344373768
38263752,344373768
114791256,344373768
");
("5s4f_134.csv", "6,472392
18,472392
54,1417176
162,4251528
486,1417176
1458,4251528
4374,12754584
13122,38263752
39366,114791256
472392,12754584
1417176,38263752
4251528,344373768
12754584,114791256
38263752,344373768
114791256,344373768
");
("5s4f_135.csv", "6,472392
18,472392
54,1417176
162,4251528
486,1417176
1458,4251528
4374,12754584
13122,38263752
39366,114791256
472392,12754584
1417176,38263752
4251528,344373768
12754584,344373768
38263752,114791256
114791256,344373768
");
("5s4f_136.csv", "6,472392
18,472392
54,1417176
162,4251528
486,1417176
1458,4251528
4374,12754584
13122,38263752
39366,114791256
472392,12754584
1417176,344373768
4251528,344373768
12754584,38263752
38263752,114791256
114791256,344373768
");
("5s4f_137.csv", "6,472392
18,472392
54,1417176
162,4251528
486,1417176
1458,4251528
4374,12754584
13122,38263752
39366,114791256
472392,344373768
1417176,12754584
4251528,38263752
12754584,114791256
38263752,344373768
114791256,344373768
");
("5s4f_138.csv", "6,472392
18,472392
54,1417176
162,4251528
486,1417176
1458,4251528
4374,12754584
13122,38263752
39366,114791256
472392,344373768
1417176,12754584
4251528,344373768
12754584,38263752
38263752,114791256
114791256,344373768
");
("5s4f_139.csv", "6,472392
18,472392
54,1417176
162,4251528
486,1417176
1458,12754584
4374,12754584
13122,38263752
39366,38263752
472392,4251528
1417176,114791256
4251528,114791256
12754584,344373768
38263752,344373768
114791256,344373768
");
("5s4f_14.csv", "6,472392
18,472392
54,1417176
162,1417176
486,4251528
1458,4251528
4374,12754584
13122,12754584
39366,38263752
472392,38263752
1417176,229582512
4251528,229582512
12754584,229582512
38263752,229582512
");
("5s4f_140.csv", "6,472392
18,472392
54,1417176
162,4251528
486,1417176
1458,12754584
4374,12754584
13122,38263752
39366,38263752
472392,4251528
1417176,114791256
4251528,344373768
12754584,114791256
38263752,344373768
114791256,344373768
");
("5s4f_141.csv", "6,472392
18,472392
54,1417176
162,4251528
486,1417176
1458,12754584
4374,12754584
13122,38263752
39366,38263752
472392,114791256
1417176,4251528
4251528,114791256
12754584,344373768
38263752,344373768
114791256,344373768
");
("5s4f_142.csv", "6,472392
18,472392
54,1417176
162,4251528
486,1417176
1458,12754584
4374,12754584
13122,38263752
39366,38263752
472392,114791256
1417176,4251528
4251528,344373768
12754584,114791256
38263752,344373768
114791256,344373768
");
("5s4f_143.csv", "6,472392
18,472392
54,1417176
162,4251528
486,1417176
1458,12754584
4374,12754584
13122,38263752
39366,38263752
472392,114791256
1417176,114791256
4251528,12754584
4251528,344373768
38263752,344373768
114791256,344373768
");
("5s4f_144.csv", "6,472392
18,472392
54,1417176
162,4251528
486,1417176
1458,12754584
4374,12754584
13122,38263752
39366,38263752
472392,114791256
1417176,114791256
4251528,114791256
4251528,344373768
12754584,344373768
38263752,344373768
");
("5s4f_145.csv", "6,472392
18,472392
54,1417176
162,4251528
486,1417176
1458,12754584
4374,12754584
13122,38263752
39366,38263752
472392,114791256
1417176,344373768
4251528,12754584
4251528,114791256
38263752,344373768
114791256,344373768
");
("5s4f_146.csv", "6,472392
18,472392
54,1417176
162,4251528
486,1417176
1458,12754584
4374,12754584
13122,38263752
39366,38263752
472392,114791256
1417176,344373768
4251528,12754584
4251528,344373768
38263752,114791256
114791256,344373768
");
("5s4f_147.csv", "6,472392
18,472392
54,1417176
162,4251528
486,1417176
1458,12754584
4374,12754584
13122,38263752
39366,38263752
472392,114791256
1417176,344373768
4251528,114791256
4251528,344373768
12754584,114791256
38263752,344373768
");
("5s4f_148.csv", "6,472392
18,472392
54,1417176
162,4251528
486,1417176
1458,12754584
4374,12754584
13122,38263752
39366,114791256
472392,4251528
1417176,38263752
4251528,114791256
12754584,344373768
38263752,344373768
114791256,344373768
");
("5s4f_149.csv", "6,472392
18,472392
54,1417176
162,4251528
486,1417176
1458,12754584
4374,12754584
13122,38263752
39366,114791256
472392,4251528
1417176,38263752
4251528,344373768
12754584,114791256
38263752,344373768
114791256,344373768
");
("5s4f_15.csv", "6,472392
18,472392
54,1417176
162,1417176
486,4251528
1458,4251528
4374,12754584
13122,12754584
39366,38263752
472392,229582512
1417176,229582512
4251528,38263752
12754584,229582512
38263752,229582512
");
("5s4f_150.csv", "6,472392
18,472392
54,1417176
162,4251528
486,1417176
1458,12754584
4374,12754584
13122,38263752
39366,114791256
472392,4251528
1417176,38263752
4251528,344373768
12754584,344373768
38263752,114791256
114791256,344373768
");
("5s4f_151.csv", "6,472392
18,472392
54,1417176
162,4251528
486,1417176
1458,12754584
4374,12754584
13122,38263752
39366,114791256
472392,4251528
1417176,344373768
4251528,38263752
12754584,114791256
38263752,344373768
114791256,344373768
");
("5s4f_152.csv", "6,472392
18,472392
54,1417176
162,4251528
486,1417176
1458,12754584
4374,12754584
13122,38263752
39366,114791256
472392,4251528
1417176,344373768
4251528,38263752
12754584,344373768
38263752,114791256
114791256,344373768
");
("5s4f_153.csv", "6,472392
18,472392
54,1417176
162,4251528
486,1417176
1458,12754584
4374,12754584
13122,38263752
39366,114791256
472392,4251528
1417176,344373768
4251528,344373768
12754584,38263752
38263752,114791256
114791256,344373768
");
("5s4f_154.csv", "6,472392
18,472392
54,1417176
162,4251528
486,1417176
1458,12754584
4374,12754584
13122,38263752
39366,114791256
472392,38263752
1417176,4251528
4251528,114791256
12754584,344373768
38263752,344373768
114791256,344373768
");
("5s4f_155.csv", "6,472392
18,472392
54,1417176
162,4251528
486,1417176
1458,12754584
4374,12754584
13122,38263752
39366,114791256
472392,38263752
1417176,4251528
4251528,344373768
12754584,114791256
38263752,344373768
114791256,344373768
");
("5s4f_156.csv", "6,472392
18,472392
54,1417176
162,4251528
486,1417176
1458,12754584
4374,12754584
13122,38263752
39366,114791256
472392,38263752
1417176,4251528
4251528,344373768
12754584,344373768
38263752,114791256
114791256,344373768
");
("5s4f_157.csv", "6,472392
18,472392
54,1417176
162,4251528
486,1417176
1458,12754584
4374,12754584
13122,38263752
39366,114791256
472392,38263752
1417176,114791256
4251528,12754584
4251528,344373768
38263752,344373768
114791256,344373768
");
("5s4f_158.csv", "6,472392
18,472392
54,1417176
162,4251528
486,1417176
1458,12754584
4374,12754584
13122,38263752
39366,114791256
472392,38263752
1417176,114791256
4251528,38263752
4251528,344373768
12754584,344373768
114791256,344373768
");
("5s4f_159.csv", "6,472392
18,472392
54,1417176
162,4251528
486,1417176
1458,12754584
4374,12754584
13122,38263752
39366,114791256
472392,38263752
1417176,114791256
4251528,114791256
4251528,344373768
12754584,344373768
38263752,344373768
");
("5s4f_16.csv", "6,472392
18,472392
54,1417176
162,1417176
486,4251528
1458,4251528
4374,12754584
13122,12754584
39366,76527504
472392,114791256
1417176,114791256
4251528,76527504
12754584,76527504
114791256,76527504
");
("5s4f_160.csv", "6,472392
18,472392
54,1417176
162,4251528
486,1417176
1458,12754584
4374,12754584
13122,38263752
39366,114791256
472392,38263752
1417176,344373768
4251528,12754584
4251528,114791256
38263752,344373768
114791256,344373768
");
("5s4f_161.csv", "6,472392
18,472392
54,1417176
162,4251528
486,1417176
1458,12754584
4374,12754584
13122,38263752
39366,114791256
472392,38263752
1417176,344373768
4251528,12754584
4251528,344373768
38263752,114791256
114791256,344373768
");
("5s4f_162.csv", "6,472392
18,472392
54,1417176
162,4251528
486,1417176
1458,12754584
4374,12754584
13122,38263752
39366,114791256
472392,38263752
1417176,344373768
4251528,38263752
4251528,114791256
12754584,344373768
114791256,344373768
");
("5s4f_163.csv", "6,472392
18,472392
54,1417176
162,4251528
486,1417176
1458,12754584
4374,12754584
13122,38263752
39366,114791256
472392,38263752
1417176,344373768
4251528,38263752
4251528,344373768
12754584,114791256
114791256,344373768
");
("5s4f_164.csv", "6,472392
18,472392
54,1417176
162,4251528
486,1417176
1458,12754584
4374,12754584
13122,38263752
39366,114791256
472392,38263752
1417176,344373768
4251528,114791256
4251528,344373768
12754584,114791256
38263752,344373768
");
("5s4f_165.csv", "6,472392
18,472392
54,1417176
162,4251528
486,1417176
1458,12754584
4374,12754584
13122,38263752
39366,114791256
472392,38263752
1417176,344373768
4251528,114791256
4251528,344373768
12754584,344373768
38263752,114791256
");
("5s4f_166.csv", "6,472392
18,472392
54,1417176
162,4251528
486,1417176
1458,12754584
4374,12754584
13122,38263752
39366,114791256
472392,344373768
1417176,4251528
4251528,38263752
12754584,114791256
38263752,344373768
114791256,344373768
");
("5s4f_167.csv", "6,472392
18,472392
54,1417176
162,4251528
486,1417176
1458,12754584
4374,12754584
13122,38263752
39366,114791256
472392,344373768
1417176,4251528
4251528,38263752
12754584,344373768
38263752,114791256
114791256,344373768
");
("5s4f_168.csv", "6,472392
18,472392
54,1417176
162,4251528
486,1417176
1458,12754584
4374,12754584
13122,38263752
39366,114791256
472392,344373768
1417176,4251528
4251528,344373768
12754584,38263752
38263752,114791256
114791256,344373768
");
("5s4f_169.csv", "6,472392
18,472392
54,1417176
162,4251528
486,1417176
1458,12754584
4374,12754584
13122,38263752
39366,114791256
472392,344373768
1417176,38263752
4251528,12754584
4251528,114791256
38263752,344373768
114791256,344373768
");
("5s4f_17.csv", "6,472392
18,472392
54,1417176
162,1417176
486,4251528
1458,4251528
4374,12754584
13122,12754584
39366,76527504
472392,114791256
1417176,76527504
4251528,114791256
12754584,76527504
114791256,76527504
");
("5s4f_170.csv", "6,472392
18,472392
54,1417176
162,4251528
486,1417176
1458,12754584
4374,12754584
13122,38263752
39366,114791256
472392,344373768
1417176,38263752
4251528,12754584
4251528,344373768
38263752,114791256
114791256,344373768
");
("5s4f_171.csv", "6,472392
18,472392
54,1417176
162,4251528
486,1417176
1458,12754584
4374,12754584
13122,38263752
39366,114791256
472392,344373768
1417176,38263752
4251528,38263752
4251528,114791256
12754584,344373768
114791256,344373768
");
("5s4f_172.csv", "6,472392
18,472392
54,1417176
162,4251528
486,1417176
1458,12754584
4374,12754584
13122,38263752
39366,114791256
472392,344373768
1417176,38263752
4251528,38263752
4251528,344373768
12754584,114791256
114791256,344373768
");
("5s4f_173.csv", "6,472392
18,472392
54,1417176
162,4251528
486,1417176
1458,12754584
4374,12754584
13122,38263752
39366,114791256
472392,344373768
1417176,38263752
4251528,114791256
4251528,344373768
12754584,114791256
38263752,344373768
");
("5s4f_174.csv", "6,472392
18,472392
54,1417176
162,4251528
486,1417176
1458,12754584
4374,12754584
13122,38263752
39366,114791256
472392,344373768
1417176,38263752
4251528,114791256
4251528,344373768
12754584,344373768
38263752,114791256
");
("5s4f_175.csv", "6,472392
18,472392
54,1417176
162,4251528
486,1417176
1458,12754584
4374,12754584
13122,38263752
39366,114791256
472392,344373768
1417176,344373768
4251528,12754584
4251528,38263752
38263752,114791256
114791256,344373768
");
("5s4f_176.csv", "6,472392
18,472392
54,1417176
162,4251528
486,1417176
1458,12754584
4374,12754584
13122,38263752
39366,114791256
472392,344373768
1417176,344373768
4251528,38263752
4251528,114791256
12754584,38263752
114791256,344373768
");
("5s4f_177.csv", "6,472392
18,472392
54,1417176
162,4251528
486,1417176
1458,12754584
4374,12754584
13122,38263752
39366,114791256
472392,344373768
1417176,344373768
4251528,38263752
4251528,344373768
12754584,114791256
38263752,114791256
");
("5s4f_178.csv", "6,472392
18,472392
54,1417176
162,4251528
486,1417176
1458,12754584
4374,38263752
13122,114791256
39366,344373768
472392,4251528
1417176,12754584
4251528,38263752
12754584,114791256
38263752,344373768
114791256,344373768
");
("5s4f_179.csv", "6,472392
18,472392
54,1417176
162,4251528
486,1417176
1458,12754584
4374,38263752
13122,114791256
39366,344373768
472392,12754584
1417176,4251528
4251528,38263752
12754584,114791256
38263752,344373768
114791256,344373768
");
("5s4f_18.csv", "6,472392
18,472392
54,1417176
162,1417176
486,4251528
1458,4251528
4374,12754584
13122,12754584
39366,76527504
472392,76527504
1417176,76527504
4251528,114791256
12754584,114791256
114791256,76527504
");
("5s4f_180.csv", "6,472392
18,472392
54,1417176
162,4251528
486,1417176
1458,12754584
4374,38263752
13122,114791256
39366,344373768
472392,12754584
1417176,38263752
4251528,12754584
4251528,114791256
38263752,344373768
114791256,344373768
");
("5s4f_181.csv", "6,472392
18,472392
54,1417176
162,4251528
486,1417176
1458,12754584
4374,38263752
13122,114791256
39366,344373768
472392,12754584
1417176,38263752
4251528,38263752
4251528,114791256
12754584,344373768
114791256,344373768
");
("5s4f_182.csv", "6,472392
18,472392
54,1417176
162,4251528
486,1417176
1458,12754584
4374,38263752
13122,114791256
39366,344373768
472392,12754584
1417176,38263752
4251528,114791256
4251528,344373768
12754584,114791256
38263752,344373768
");
("5s4f_183.csv", "6,472392
18,472392
54,1417176
162,4251528
486,12754584
1458,12754584
4374,38263752
13122,38263752
39366,114791256
472392,1417176
1417176,4251528
4251528,114791256
12754584,344373768
38263752,344373768
114791256,344373768
");
("5s4f_184.csv", "6,472392
18,472392
54,1417176
162,4251528
486,12754584
1458,12754584
4374,38263752
13122,38263752
39366,114791256
472392,1417176
1417176,4251528
4251528,344373768
12754584,114791256
38263752,344373768
114791256,344373768
");
("5s4f_185.csv", "6,472392
18,472392
54,1417176
162,4251528
486,12754584
1458,12754584
4374,38263752
13122,38263752
39366,114791256
472392,1417176
1417176,114791256
4251528,12754584
4251528,344373768
38263752,344373768
114791256,344373768
");
("5s4f_186.csv", "6,472392
18,472392
54,1417176
162,4251528
486,12754584
1458,12754584
4374,38263752
13122,38263752
39366,114791256
472392,1417176
1417176,114791256
4251528,114791256
4251528,344373768
12754584,344373768
38263752,344373768
");
("5s4f_187.csv", "6,472392
18,472392
54,1417176
162,4251528
486,12754584
1458,12754584
4374,38263752
13122,38263752
39366,114791256
472392,1417176
1417176,344373768
4251528,12754584
4251528,114791256
38263752,344373768
114791256,344373768
");
("5s4f_188.csv", "6,472392
18,472392
54,1417176
162,4251528
486,12754584
1458,12754584
4374,38263752
13122,38263752
39366,114791256
472392,1417176
1417176,344373768
4251528,12754584
4251528,344373768
38263752,114791256
114791256,344373768
");
("5s4f_189.csv", "6,472392
18,472392
54,1417176
162,4251528
486,12754584
1458,12754584
4374,38263752
13122,38263752
39366,114791256
472392,1417176
1417176,344373768
4251528,114791256
4251528,344373768
12754584,114791256
38263752,344373768
");
("5s4f_19.csv", "6,472392
18,472392
54,1417176
162,1417176
486,4251528
1458,4251528
4374,12754584
13122,38263752
39366,229582512
472392,12754584
1417176,38263752
4251528,229582512
12754584,229582512
38263752,229582512
");
("5s4f_190.csv", "6,472392
18,472392
54,1417176
162,4251528
486,12754584
1458,12754584
4374,38263752
13122,38263752
39366,114791256
472392,114791256
1417176,4251528
1417176,12754584
4251528,344373768
38263752,344373768
114791256,344373768
");
("5s4f_191.csv", "6,472392
18,472392
54,1417176
162,4251528
486,12754584
1458,12754584
4374,38263752
13122,38263752
39366,114791256
472392,114791256
1417176,4251528
1417176,114791256
4251528,344373768
12754584,344373768
38263752,344373768
");
("5s4f_192.csv", "6,472392
18,472392
54,1417176
162,4251528
486,12754584
1458,12754584
4374,38263752
13122,38263752
39366,114791256
472392,114791256
1417176,12754584
1417176,344373768
4251528,38263752
4251528,344373768
114791256,344373768
");
("5s4f_193.csv", "6,472392
18,472392
54,1417176
162,4251528
486,12754584
1458,12754584
4374,38263752
13122,38263752
39366,114791256
472392,114791256
1417176,12754584
1417176,344373768
4251528,114791256
4251528,344373768
38263752,344373768
");
("5s4f_194.csv", "6,472392
18,472392
54,1417176
162,4251528
486,12754584
1458,12754584
4374,38263752
13122,38263752
39366,114791256
472392,344373768
1417176,4251528
1417176,12754584
4251528,114791256
38263752,344373768
114791256,344373768
");
("5s4f_195.csv", "6,472392
18,472392
54,1417176
162,4251528
486,12754584
1458,12754584
4374,38263752
13122,38263752
39366,114791256
472392,344373768
1417176,4251528
1417176,12754584
4251528,344373768
38263752,114791256
114791256,344373768
");
("5s4f_196.csv", "6,472392
18,472392
54,1417176
162,4251528
486,12754584
1458,12754584
4374,38263752
13122,38263752
39366,114791256
472392,344373768
1417176,4251528
1417176,114791256
4251528,344373768
12754584,114791256
38263752,344373768
");
("5s4f_197.csv", "6,472392
18,472392
54,1417176
162,4251528
486,12754584
1458,12754584
4374,38263752
13122,38263752
39366,114791256
472392,344373768
1417176,12754584
1417176,114791256
4251528,38263752
4251528,344373768
114791256,344373768
");
("5s4f_198.csv", "6,472392
18,472392
54,1417176
162,4251528
486,12754584
1458,12754584
4374,38263752
13122,38263752
39366,114791256
472392,344373768
1417176,12754584
1417176,114791256
4251528,114791256
4251528,344373768
38263752,344373768
");
("5s4f_199.csv", "6,472392
18,472392
54,1417176
162,4251528
486,12754584
1458,12754584
4374,38263752
13122,38263752
39366,114791256
472392,344373768
1417176,12754584
1417176,344373768
4251528,114791256
4251528,344373768
38263752,114791256
");
("5s4f_2.csv", "6,472392
18,472392
54,1417176
162,1417176
486,4251528
1458,4251528
4374,25509168
13122,25509168
39366,76527504
472392,25509168
1417176,76527504
4251528,76527504
25509168,76527504
");
("5s4f_20.csv", "6,472392
18,472392
54,1417176
162,1417176
486,4251528
1458,4251528
4374,12754584
13122,38263752
39366,229582512
472392,12754584
1417176,229582512
4251528,38263752
12754584,229582512
38263752,229582512
");
("5s4f_200.csv", "6,472392
18,472392
54,1417176
162,4251528
486,12754584
1458,12754584
4374,38263752
13122,114791256
39366,344373768
472392,1417176
1417176,4251528
4251528,38263752
12754584,114791256
38263752,344373768
114791256,344373768
");
("5s4f_201.csv", "6,472392
18,472392
54,1417176
162,4251528
486,12754584
1458,12754584
4374,38263752
13122,114791256
39366,344373768
472392,1417176
1417176,38263752
4251528,12754584
4251528,114791256
38263752,344373768
114791256,344373768
");
("5s4f_202.csv", "6,472392
18,472392
54,1417176
162,4251528
486,12754584
1458,12754584
4374,38263752
13122,114791256
39366,344373768
472392,1417176
1417176,38263752
4251528,38263752
4251528,114791256
12754584,344373768
114791256,344373768
");
("5s4f_203.csv", "6,472392
18,472392
54,1417176
162,4251528
486,12754584
1458,12754584
4374,38263752
13122,114791256
39366,344373768
472392,1417176
1417176,38263752
4251528,114791256
4251528,344373768
12754584,114791256
38263752,344373768
");
("5s4f_204.csv", "6,472392
18,472392
54,1417176
162,4251528
486,12754584
1458,12754584
4374,38263752
13122,114791256
39366,344373768
472392,38263752
1417176,4251528
1417176,12754584
4251528,114791256
38263752,344373768
114791256,344373768
");
("5s4f_205.csv", "6,472392
18,472392
54,1417176
162,4251528
486,12754584
1458,12754584
4374,38263752
13122,114791256
39366,344373768
472392,38263752
1417176,4251528
1417176,38263752
4251528,114791256
12754584,344373768
114791256,344373768
");
("5s4f_206.csv", "6,472392
18,472392
54,1417176
162,4251528
486,12754584
1458,12754584
4374,38263752
13122,114791256
39366,344373768
472392,38263752
1417176,4251528
1417176,114791256
4251528,344373768
12754584,114791256
38263752,344373768
");
("5s4f_207.csv", "6,472392
18,472392
54,1417176
162,4251528
486,12754584
1458,12754584
4374,38263752
13122,114791256
39366,344373768
472392,38263752
1417176,12754584
1417176,114791256
4251528,38263752
4251528,344373768
114791256,344373768
");
("5s4f_208.csv", "6,472392
18,472392
54,1417176
162,4251528
486,12754584
1458,12754584
4374,38263752
13122,114791256
39366,344373768
472392,38263752
1417176,12754584
1417176,114791256
4251528,114791256
4251528,344373768
38263752,344373768
");
("5s4f_209.csv", "6,472392
18,472392
54,1417176
162,4251528
486,12754584
1458,12754584
4374,38263752
13122,114791256
39366,344373768
472392,38263752
1417176,38263752
1417176,114791256
4251528,114791256
4251528,344373768
12754584,344373768
");
("5s4f_21.csv", "6,472392
18,472392
54,1417176
162,1417176
486,4251528
1458,4251528
4374,12754584
13122,38263752
39366,229582512
472392,12754584
1417176,229582512
4251528,229582512
12754584,38263752
38263752,229582512
");
("5s4f_210.csv", "6,472392
18,1417176
54,4251528
162,12754584
486,472392
1458,1417176
4374,4251528
13122,12754584
39366,38263752
472392,38263752
1417176,114791256
4251528,114791256
12754584,344373768
38263752,344373768
114791256,344373768
");
("5s4f_211.csv", "6,472392
18,1417176
54,4251528
162,12754584
486,472392
1458,1417176
4374,4251528
13122,12754584
39366,38263752
472392,114791256
1417176,114791256
4251528,344373768
12754584,344373768
38263752,114791256
38263752,344373768
");
("5s4f_212.csv", "6,472392
18,1417176
54,4251528
162,12754584
486,472392
1458,1417176
4374,4251528
13122,38263752
39366,38263752
472392,12754584
1417176,114791256
4251528,114791256
12754584,344373768
38263752,344373768
114791256,344373768
");
("5s4f_213.csv", "6,472392
18,1417176
54,4251528
162,12754584
486,472392
1458,1417176
4374,4251528
13122,38263752
39366,38263752
472392,12754584
1417176,114791256
4251528,344373768
12754584,114791256
38263752,344373768
114791256,344373768
");
("5s4f_214.csv", "6,472392
18,1417176
54,4251528
162,12754584
486,472392
1458,1417176
4374,4251528
13122,38263752
39366,38263752
472392,114791256
1417176,114791256
4251528,344373768
12754584,38263752
12754584,344373768
114791256,344373768
");
("5s4f_215.csv", "6,472392
18,1417176
54,4251528
162,12754584
486,472392
1458,1417176
4374,4251528
13122,38263752
39366,38263752
472392,114791256
1417176,114791256
4251528,344373768
12754584,114791256
12754584,344373768
38263752,344373768
");
("5s4f_216.csv", "6,472392
18,1417176
54,4251528
162,12754584
486,472392
1458,1417176
4374,4251528
13122,38263752
39366,114791256
472392,12754584
1417176,38263752
4251528,114791256
12754584,344373768
38263752,344373768
114791256,344373768
");
("5s4f_217.csv", "6,472392
18,1417176
54,4251528
162,12754584
486,472392
1458,1417176
4374,4251528
13122,38263752
39366,114791256
472392,12754584
1417176,38263752
4251528,344373768
12754584,114791256
38263752,344373768
114791256,344373768
");
("5s4f_218.csv", "6,472392
18,1417176
54,4251528
162,12754584
486,472392
1458,1417176
4374,4251528
13122,38263752
39366,114791256
472392,12754584
1417176,38263752
4251528,344373768
12754584,344373768
38263752,114791256
114791256,344373768
");
("5s4f_219.csv", "6,472392
18,1417176
54,4251528
162,12754584
486,472392
1458,1417176
4374,4251528
13122,38263752
39366,114791256
472392,12754584
1417176,344373768
4251528,344373768
12754584,38263752
38263752,114791256
114791256,344373768
");
("5s4f_22.csv", "6,472392
18,472392
54,1417176
162,1417176
486,4251528
1458,4251528
4374,12754584
13122,38263752
39366,229582512
472392,229582512
1417176,229582512
4251528,12754584
12754584,38263752
38263752,229582512
");
("5s4f_220.csv", "6,472392
18,1417176
54,4251528
162,12754584
486,472392
1458,1417176
4374,4251528
13122,38263752
39366,114791256
472392,38263752
1417176,114791256
4251528,344373768
12754584,38263752
12754584,344373768
114791256,344373768
");
("5s4f_221.csv", "6,472392
18,1417176
54,4251528
162,12754584
486,472392
1458,1417176
4374,4251528
13122,38263752
39366,114791256
472392,38263752
1417176,344373768
4251528,344373768
12754584,38263752
12754584,114791256
114791256,344373768
");
("5s4f_222.csv", "6,472392
18,1417176
54,4251528
162,12754584
486,472392
1458,1417176
4374,4251528
13122,38263752
39366,114791256
472392,38263752
1417176,344373768
4251528,344373768
12754584,114791256
12754584,344373768
38263752,114791256
");
("5s4f_223.csv", "6,472392
18,1417176
54,4251528
162,12754584
486,472392
1458,1417176
4374,38263752
13122,38263752
39366,114791256
472392,4251528
1417176,12754584
4251528,114791256
12754584,344373768
38263752,344373768
114791256,344373768
");
("5s4f_224.csv", "6,472392
18,1417176
54,4251528
162,12754584
486,472392
1458,1417176
4374,38263752
13122,38263752
39366,114791256
472392,4251528
1417176,12754584
4251528,344373768
12754584,344373768
38263752,114791256
114791256,344373768
");
("5s4f_225.csv", "6,472392
18,1417176
54,4251528
162,12754584
486,472392
1458,1417176
4374,38263752
13122,38263752
39366,114791256
472392,4251528
1417176,114791256
4251528,12754584
12754584,344373768
38263752,344373768
114791256,344373768
");
("5s4f_226.csv", "6,472392
18,1417176
54,4251528
162,12754584
486,472392
1458,1417176
4374,38263752
13122,38263752
39366,114791256
472392,4251528
1417176,114791256
4251528,344373768
12754584,38263752
12754584,344373768
114791256,344373768
");
("5s4f_227.csv", "6,472392
18,1417176
54,4251528
162,12754584
486,472392
1458,1417176
4374,38263752
13122,38263752
39366,114791256
472392,4251528
1417176,114791256
4251528,344373768
12754584,114791256
12754584,344373768
38263752,344373768
");
("5s4f_228.csv", "6,472392
18,1417176
54,4251528
162,12754584
486,472392
1458,1417176
4374,38263752
13122,38263752
39366,114791256
472392,4251528
1417176,344373768
4251528,12754584
12754584,114791256
38263752,344373768
114791256,344373768
");
("5s4f_229.csv", "6,472392
18,1417176
54,4251528
162,12754584
486,472392
1458,1417176
4374,38263752
13122,38263752
39366,114791256
472392,4251528
1417176,344373768
4251528,12754584
12754584,344373768
38263752,114791256
114791256,344373768
");
("5s4f_23.csv", "6,472392
18,472392
54,1417176
162,1417176
486,4251528
1458,4251528
4374,12754584
13122,76527504
39366,76527504
472392,12754584
1417176,114791256
4251528,114791256
12754584,76527504
114791256,76527504
");
("5s4f_230.csv", "6,472392
18,1417176
54,4251528
162,12754584
486,472392
1458,1417176
4374,38263752
13122,38263752
39366,114791256
472392,4251528
1417176,344373768
4251528,114791256
12754584,38263752
12754584,344373768
114791256,344373768
");
("5s4f_231.csv", "6,472392
18,1417176
54,4251528
162,12754584
486,472392
1458,1417176
4374,38263752
13122,38263752
39366,114791256
472392,4251528
1417176,344373768
4251528,114791256
12754584,114791256
12754584,344373768
38263752,344373768
");
("5s4f_232.csv", "6,472392
18,1417176
54,4251528
162,12754584
486,472392
1458,1417176
4374,38263752
13122,38263752
39366,114791256
472392,4251528
1417176,344373768
4251528,344373768
12754584,38263752
12754584,114791256
114791256,344373768
");
("5s4f_233.csv", "6,472392
18,1417176
54,4251528
162,12754584
486,472392
1458,1417176
4374,38263752
13122,38263752
39366,114791256
472392,4251528
1417176,344373768
4251528,344373768
12754584,114791256
12754584,344373768
38263752,114791256
");
("5s4f_234.csv", "6,472392
18,1417176
54,4251528
162,12754584
486,472392
1458,1417176
4374,38263752
13122,38263752
39366,114791256
472392,114791256
1417176,344373768
4251528,12754584
4251528,38263752
12754584,344373768
114791256,344373768
");
("5s4f_235.csv", "6,472392
18,1417176
54,4251528
162,12754584
486,472392
1458,1417176
4374,38263752
13122,38263752
39366,114791256
472392,114791256
1417176,344373768
4251528,12754584
4251528,114791256
12754584,344373768
38263752,344373768
");
("5s4f_236.csv", "6,472392
18,1417176
54,4251528
162,12754584
486,472392
1458,1417176
4374,38263752
13122,38263752
39366,114791256
472392,114791256
1417176,344373768
4251528,38263752
4251528,344373768
12754584,114791256
12754584,344373768
");
("5s4f_237.csv", "6,472392
18,1417176
54,4251528
162,12754584
486,472392
1458,1417176
4374,38263752
13122,38263752
39366,114791256
472392,344373768
1417176,344373768
4251528,12754584
4251528,38263752
12754584,114791256
114791256,344373768
");
("5s4f_238.csv", "6,472392
18,1417176
54,4251528
162,12754584
486,472392
1458,1417176
4374,38263752
13122,38263752
39366,114791256
472392,344373768
1417176,344373768
4251528,12754584
4251528,114791256
12754584,344373768
38263752,114791256
");
("5s4f_239.csv", "6,472392
18,1417176
54,4251528
162,12754584
486,472392
1458,1417176
4374,38263752
13122,38263752
39366,114791256
472392,344373768
1417176,344373768
4251528,38263752
4251528,114791256
12754584,114791256
12754584,344373768
");
("5s4f_24.csv", "6,472392
18,472392
54,1417176
162,1417176
486,4251528
1458,4251528
4374,12754584
13122,76527504
39366,76527504
472392,12754584
1417176,114791256
4251528,76527504
12754584,114791256
114791256,76527504
");
("5s4f_240.csv", "6,472392
18,1417176
54,4251528
162,12754584
486,472392
1458,1417176
4374,38263752
13122,114791256
39366,344373768
472392,4251528
1417176,12754584
4251528,38263752
12754584,114791256
38263752,344373768
114791256,344373768
");
("5s4f_241.csv", "6,472392
18,1417176
54,4251528
162,12754584
486,472392
1458,1417176
4374,38263752
13122,114791256
39366,344373768
472392,4251528
1417176,38263752
4251528,12754584
12754584,114791256
38263752,344373768
114791256,344373768
");
("5s4f_242.csv", "6,472392
18,1417176
54,4251528
162,12754584
486,472392
1458,1417176
4374,38263752
13122,114791256
39366,344373768
472392,4251528
1417176,38263752
4251528,114791256
12754584,38263752
12754584,344373768
114791256,344373768
");
("5s4f_243.csv", "6,472392
18,1417176
54,4251528
162,12754584
486,472392
1458,1417176
4374,38263752
13122,114791256
39366,344373768
472392,4251528
1417176,38263752
4251528,114791256
12754584,114791256
12754584,344373768
38263752,344373768
");
("5s4f_244.csv", "6,472392
18,1417176
54,4251528
162,12754584
486,472392
1458,1417176
4374,38263752
13122,114791256
39366,344373768
472392,38263752
1417176,114791256
4251528,12754584
4251528,38263752
12754584,344373768
114791256,344373768
");
("5s4f_245.csv", "6,472392
18,1417176
54,4251528
162,12754584
486,472392
1458,1417176
4374,38263752
13122,114791256
39366,344373768
472392,38263752
1417176,114791256
4251528,38263752
4251528,344373768
12754584,114791256
12754584,344373768
");
("5s4f_246.csv", "6,472392
18,1417176
54,4251528
162,12754584
486,472392
1458,38263752
4374,38263752
13122,114791256
39366,114791256
472392,1417176
1417176,4251528
4251528,12754584
12754584,344373768
38263752,344373768
114791256,344373768
");
("5s4f_247.csv", "6,472392
18,1417176
54,4251528
162,12754584
486,472392
1458,38263752
4374,38263752
13122,114791256
39366,114791256
472392,1417176
1417176,4251528
4251528,344373768
12754584,38263752
12754584,344373768
114791256,344373768
");
("5s4f_248.csv", "6,472392
18,1417176
54,4251528
162,12754584
486,472392
1458,38263752
4374,38263752
13122,114791256
39366,114791256
472392,1417176
1417176,344373768
4251528,12754584
4251528,38263752
12754584,344373768
114791256,344373768
");
("5s4f_249.csv", "6,472392
18,1417176
54,4251528
162,12754584
486,472392
1458,38263752
4374,38263752
13122,114791256
39366,114791256
472392,1417176
1417176,344373768
4251528,38263752
4251528,344373768
12754584,114791256
12754584,344373768
");
("5s4f_25.csv", "6,472392
18,472392
54,1417176
162,1417176
486,4251528
1458,4251528
4374,12754584
13122,76527504
39366,76527504
472392,12754584
1417176,76527504
4251528,114791256
12754584,114791256
114791256,76527504
");
("5s4f_250.csv", "6,472392
18,1417176
54,4251528
162,12754584
486,472392
1458,38263752
4374,38263752
13122,114791256
39366,114791256
472392,344373768
1417176,4251528
1417176,12754584
4251528,38263752
12754584,344373768
114791256,344373768
");
("5s4f_251.csv", "6,472392
18,1417176
54,4251528
162,12754584
486,472392
1458,38263752
4374,38263752
13122,114791256
39366,114791256
472392,344373768
1417176,4251528
1417176,38263752
4251528,344373768
12754584,114791256
12754584,344373768
");
("5s4f_252.csv", "6,472392
18,1417176
54,4251528
162,12754584
486,472392
1458,38263752
4374,38263752
13122,114791256
39366,344373768
472392,1417176
1417176,4251528
4251528,12754584
12754584,114791256
38263752,344373768
114791256,344373768
");
("5s4f_253.csv", "6,472392
18,1417176
54,4251528
162,12754584
486,472392
1458,38263752
4374,38263752
13122,114791256
39366,344373768
472392,1417176
1417176,4251528
4251528,114791256
12754584,38263752
12754584,344373768
114791256,344373768
");
("5s4f_254.csv", "6,472392
18,1417176
54,4251528
162,12754584
486,472392
1458,38263752
4374,38263752
13122,114791256
39366,344373768
472392,1417176
1417176,4251528
4251528,114791256
12754584,114791256
12754584,344373768
38263752,344373768
");
("5s4f_255.csv", "6,472392
18,1417176
54,4251528
162,12754584
486,472392
1458,38263752
4374,38263752
13122,114791256
39366,344373768
472392,1417176
1417176,114791256
4251528,12754584
4251528,38263752
12754584,344373768
114791256,344373768
");
("5s4f_256.csv", "6,472392
18,1417176
54,4251528
162,12754584
486,472392
1458,38263752
4374,38263752
13122,114791256
39366,344373768
472392,1417176
1417176,114791256
4251528,12754584
4251528,114791256
12754584,344373768
38263752,344373768
");
("5s4f_257.csv", "6,472392
18,1417176
54,4251528
162,12754584
486,472392
1458,38263752
4374,38263752
13122,114791256
39366,344373768
472392,1417176
1417176,114791256
4251528,38263752
4251528,344373768
12754584,114791256
12754584,344373768
");
("5s4f_258.csv", "6,472392
18,1417176
54,4251528
162,12754584
486,472392
1458,38263752
4374,38263752
13122,114791256
39366,344373768
472392,114791256
1417176,4251528
1417176,12754584
4251528,38263752
12754584,344373768
114791256,344373768
");
("5s4f_259.csv", "6,472392
18,1417176
54,4251528
162,12754584
486,472392
1458,38263752
4374,38263752
13122,114791256
39366,344373768
472392,114791256
1417176,4251528
1417176,12754584
4251528,114791256
12754584,344373768
38263752,344373768
");
("5s4f_26.csv", "6,472392
18,472392
54,1417176
162,1417176
486,4251528
1458,4251528
4374,12754584
13122,76527504
39366,76527504
472392,114791256
1417176,114791256
4251528,12754584
12754584,76527504
114791256,76527504
");
("5s4f_260.csv", "6,472392
18,1417176
54,4251528
162,12754584
486,472392
1458,38263752
4374,38263752
13122,114791256
39366,344373768
472392,114791256
1417176,4251528
1417176,38263752
4251528,344373768
12754584,114791256
12754584,344373768
");
("5s4f_261.csv", "6,472392
18,1417176
54,4251528
162,12754584
486,472392
1458,38263752
4374,38263752
13122,114791256
39366,344373768
472392,114791256
1417176,4251528
1417176,114791256
4251528,344373768
12754584,38263752
12754584,344373768
");
("5s4f_262.csv", "6,472392
18,1417176
54,4251528
162,12754584
486,38263752
1458,38263752
4374,114791256
13122,114791256
39366,344373768
472392,1417176
472392,4251528
1417176,12754584
4251528,38263752
12754584,344373768
114791256,344373768
");
("5s4f_263.csv", "6,472392
18,1417176
54,4251528
162,12754584
486,38263752
1458,38263752
4374,114791256
13122,114791256
39366,344373768
472392,1417176
472392,4251528
1417176,38263752
4251528,344373768
12754584,114791256
12754584,344373768
");
("5s4f_264.csv", "6,472392
18,1417176
54,4251528
162,12754584
486,38263752
1458,38263752
4374,114791256
13122,114791256
39366,344373768
472392,1417176
472392,38263752
1417176,344373768
4251528,12754584
4251528,114791256
12754584,344373768
");
("5s4f_27.csv", "6,472392
18,472392
54,1417176
162,1417176
486,4251528
1458,4251528
4374,12754584
13122,76527504
39366,76527504
472392,114791256
1417176,114791256
4251528,76527504
12754584,114791256
12754584,76527504
");
("5s4f_28.csv", "6,472392
18,472392
54,1417176
162,1417176
486,4251528
1458,4251528
4374,12754584
13122,76527504
39366,76527504
472392,114791256
1417176,76527504
4251528,12754584
12754584,114791256
114791256,76527504
");
("5s4f_29.csv", "6,472392
18,472392
54,1417176
162,1417176
486,4251528
1458,4251528
4374,12754584
13122,76527504
39366,76527504
472392,114791256
1417176,76527504
4251528,114791256
12754584,114791256
12754584,76527504
");
("5s4f_3.csv", "6,472392
18,472392
54,1417176
162,1417176
486,4251528
1458,4251528
4374,25509168
13122,25509168
39366,76527504
472392,76527504
1417176,76527504
4251528,25509168
25509168,76527504
");
("5s4f_30.csv", "6,472392
18,472392
54,1417176
162,1417176
486,4251528
1458,4251528
4374,25509168
13122,25509168
39366,25509168
472392,38263752
1417176,38263752
4251528,114791256
38263752,114791256
114791256,25509168
");
("5s4f_31.csv", "6,472392
18,472392
54,1417176
162,1417176
486,4251528
1458,4251528
4374,25509168
13122,25509168
39366,25509168
472392,38263752
1417176,114791256
4251528,38263752
38263752,114791256
114791256,25509168
");
("5s4f_32.csv", "6,472392
18,472392
54,1417176
162,1417176
486,4251528
1458,12754584
4374,38263752
13122,229582512
39366,229582512
472392,4251528
1417176,12754584
4251528,38263752
12754584,229582512
38263752,229582512
");
("5s4f_33.csv", "6,472392
18,472392
54,1417176
162,1417176
486,4251528
1458,12754584
4374,38263752
13122,229582512
39366,229582512
472392,4251528
1417176,229582512
4251528,12754584
12754584,38263752
38263752,229582512
");
("5s4f_34.csv", "6,472392
18,472392
54,1417176
162,1417176
486,4251528
1458,12754584
4374,76527504
13122,76527504
39366,76527504
472392,4251528
1417176,12754584
4251528,114791256
12754584,114791256
114791256,76527504
");
("5s4f_35.csv", "6,472392
18,472392
54,1417176
162,1417176
486,4251528
1458,12754584
4374,76527504
13122,76527504
39366,76527504
472392,4251528
1417176,114791256
4251528,12754584
12754584,114791256
114791256,76527504
");
("5s4f_36.csv", "6,472392
18,472392
54,1417176
162,1417176
486,4251528
1458,12754584
4374,76527504
13122,76527504
39366,76527504
472392,4251528
1417176,114791256
4251528,114791256
12754584,114791256
12754584,76527504
");
("5s4f_37.csv", "6,472392
18,472392
54,1417176
162,1417176
486,4251528
1458,12754584
4374,76527504
13122,76527504
39366,76527504
472392,114791256
1417176,114791256
4251528,12754584
4251528,114791256
12754584,76527504
");
("5s4f_38.csv", "6,472392
18,472392
54,1417176
162,4251528
486,1417176
1458,4251528
4374,12754584
13122,12754584
39366,76527504
472392,76527504
1417176,114791256
4251528,114791256
12754584,76527504
114791256,76527504
");
("5s4f_39.csv", "6,472392
18,472392
54,1417176
162,4251528
486,1417176
1458,4251528
4374,12754584
13122,76527504
39366,76527504
472392,12754584
1417176,114791256
4251528,114791256
12754584,76527504
114791256,76527504
");
("5s4f_4.csv", "6,472392
18,472392
54,1417176
162,1417176
486,4251528
1458,25509168
4374,25509168
13122,25509168
39366,76527504
472392,4251528
1417176,76527504
4251528,76527504
25509168,76527504
");
("5s4f_40.csv", "6,472392
18,472392
54,1417176
162,4251528
486,1417176
1458,4251528
4374,12754584
13122,76527504
39366,76527504
472392,76527504
1417176,12754584
4251528,114791256
12754584,114791256
114791256,76527504
");
("5s4f_41.csv", "6,472392
18,472392
54,1417176
162,4251528
486,1417176
1458,4251528
4374,12754584
13122,76527504
39366,76527504
472392,76527504
1417176,114791256
4251528,114791256
12754584,114791256
12754584,76527504
");
("5s4f_42.csv", "6,472392
18,472392
54,1417176
162,4251528
486,1417176
1458,4251528
4374,25509168
13122,25509168
39366,25509168
472392,38263752
1417176,38263752
4251528,114791256
38263752,114791256
114791256,25509168
");
("5s4f_43.csv", "6,472392
18,472392
54,1417176
162,4251528
486,1417176
1458,4251528
4374,25509168
13122,25509168
39366,25509168
472392,38263752
1417176,114791256
4251528,114791256
38263752,114791256
38263752,25509168
");
("5s4f_44.csv", "6,472392
18,472392
54,1417176
162,4251528
486,1417176
1458,12754584
4374,12754584
13122,38263752
39366,38263752
472392,229582512
1417176,4251528
4251528,229582512
12754584,229582512
38263752,229582512
");
("5s4f_45.csv", "6,472392
18,472392
54,1417176
162,4251528
486,1417176
1458,12754584
4374,12754584
13122,38263752
39366,229582512
472392,38263752
1417176,4251528
4251528,229582512
12754584,229582512
38263752,229582512
");
("5s4f_46.csv", "6,472392
18,472392
54,1417176
162,4251528
486,1417176
1458,12754584
4374,12754584
13122,38263752
39366,229582512
472392,229582512
1417176,4251528
4251528,38263752
12754584,229582512
38263752,229582512
");
("5s4f_47.csv", "6,472392
18,472392
54,1417176
162,4251528
486,1417176
1458,12754584
4374,12754584
13122,38263752
39366,229582512
472392,229582512
1417176,4251528
4251528,229582512
12754584,38263752
38263752,229582512
");
("5s4f_48.csv", "6,472392
18,472392
54,1417176
162,4251528
486,1417176
1458,12754584
4374,12754584
13122,38263752
39366,229582512
472392,229582512
1417176,38263752
4251528,38263752
4251528,229582512
12754584,229582512
");
("5s4f_49.csv", "6,472392
18,472392
54,1417176
162,4251528
486,1417176
1458,12754584
4374,12754584
13122,76527504
39366,76527504
472392,4251528
1417176,114791256
4251528,114791256
12754584,76527504
114791256,76527504
");
("5s4f_5.csv", "6,472392
18,472392
54,1417176
162,1417176
486,4251528
1458,25509168
4374,25509168
13122,25509168
39366,76527504
472392,76527504
1417176,76527504
4251528,25509168
4251528,76527504
");
("5s4f_50.csv", "6,472392
18,472392
54,1417176
162,4251528
486,1417176
1458,12754584
4374,12754584
13122,76527504
39366,76527504
472392,114791256
1417176,4251528
4251528,114791256
12754584,76527504
114791256,76527504
");
("5s4f_51.csv", "6,472392
18,472392
54,1417176
162,4251528
486,1417176
1458,12754584
4374,12754584
13122,76527504
39366,76527504
472392,114791256
1417176,4251528
4251528,76527504
12754584,114791256
114791256,76527504
");
("5s4f_52.csv", "6,472392
18,472392
54,1417176
162,4251528
486,1417176
1458,12754584
4374,12754584
13122,76527504
39366,76527504
472392,114791256
1417176,114791256
4251528,114791256
4251528,76527504
12754584,76527504
");
("5s4f_53.csv", "6,472392
18,472392
54,1417176
162,4251528
486,1417176
1458,12754584
4374,12754584
13122,76527504
39366,76527504
472392,76527504
1417176,4251528
4251528,114791256
12754584,114791256
114791256,76527504
");
("5s4f_54.csv", "6,472392
18,472392
54,1417176
162,4251528
486,1417176
1458,12754584
4374,12754584
13122,76527504
39366,76527504
472392,76527504
1417176,114791256
4251528,12754584
4251528,114791256
114791256,76527504
");
("5s4f_55.csv", "6,472392
18,472392
54,1417176
162,4251528
486,1417176
1458,12754584
4374,12754584
13122,76527504
39366,76527504
472392,76527504
1417176,114791256
4251528,114791256
4251528,76527504
12754584,114791256
");
("5s4f_56.csv", "6,472392
18,472392
54,1417176
162,4251528
486,1417176
1458,12754584
4374,38263752
13122,229582512
39366,229582512
472392,12754584
1417176,4251528
4251528,38263752
12754584,229582512
38263752,229582512
");
("5s4f_57.csv", "6,472392
18,472392
54,1417176
162,4251528
486,1417176
1458,12754584
4374,38263752
13122,229582512
39366,229582512
472392,12754584
1417176,4251528
4251528,229582512
12754584,38263752
38263752,229582512
");
("5s4f_58.csv", "6,472392
18,472392
54,1417176
162,4251528
486,1417176
1458,12754584
4374,38263752
13122,229582512
39366,229582512
472392,12754584
1417176,38263752
4251528,38263752
4251528,229582512
12754584,229582512
");
("5s4f_59.csv", "6,472392
18,472392
54,1417176
162,4251528
486,1417176
1458,12754584
4374,38263752
13122,229582512
39366,229582512
472392,229582512
1417176,4251528
4251528,12754584
12754584,38263752
38263752,229582512
");
("5s4f_6.csv", "6,472392
18,472392
54,1417176
162,1417176
486,4251528
1458,25509168
4374,25509168
13122,76527504
39366,76527504
472392,4251528
1417176,25509168
4251528,76527504
25509168,76527504
");
("5s4f_60.csv", "6,472392
18,472392
54,1417176
162,4251528
486,1417176
1458,12754584
4374,38263752
13122,229582512
39366,229582512
472392,229582512
1417176,12754584
4251528,12754584
4251528,38263752
38263752,229582512
");
("5s4f_61.csv", "6,472392
18,472392
54,1417176
162,4251528
486,1417176
1458,12754584
4374,38263752
13122,229582512
39366,229582512
472392,229582512
1417176,12754584
4251528,38263752
4251528,229582512
12754584,38263752
");
("5s4f_62.csv", "6,472392
18,472392
54,1417176
162,4251528
486,1417176
1458,12754584
4374,76527504
13122,76527504
39366,76527504
472392,4251528
1417176,12754584
4251528,114791256
12754584,114791256
114791256,76527504
");
("5s4f_63.csv", "6,472392
18,472392
54,1417176
162,4251528
486,1417176
1458,12754584
4374,76527504
13122,76527504
39366,76527504
472392,4251528
1417176,114791256
4251528,12754584
12754584,114791256
114791256,76527504
");
("5s4f_64.csv", "6,472392
18,472392
54,1417176
162,4251528
486,1417176
1458,12754584
4374,76527504
13122,76527504
39366,76527504
472392,4251528
1417176,114791256
4251528,114791256
12754584,114791256
12754584,76527504
");
("5s4f_65.csv", "6,472392
18,472392
54,1417176
162,4251528
486,1417176
1458,12754584
4374,76527504
13122,76527504
39366,76527504
472392,12754584
1417176,4251528
4251528,114791256
12754584,114791256
114791256,76527504
");
("5s4f_66.csv", "6,472392
18,472392
54,1417176
162,4251528
486,1417176
1458,12754584
4374,76527504
13122,76527504
39366,76527504
472392,12754584
1417176,114791256
4251528,12754584
4251528,114791256
114791256,76527504
");
("5s4f_67.csv", "6,472392
18,472392
54,1417176
162,4251528
486,1417176
1458,12754584
4374,76527504
13122,76527504
39366,76527504
472392,12754584
1417176,114791256
4251528,114791256
4251528,76527504
12754584,114791256
");
("5s4f_68.csv", "6,472392
18,472392
54,1417176
162,4251528
486,1417176
1458,12754584
4374,76527504
13122,76527504
39366,76527504
472392,114791256
1417176,4251528
4251528,12754584
12754584,114791256
114791256,76527504
");
("5s4f_69.csv", "6,472392
18,472392
54,1417176
162,4251528
486,1417176
1458,12754584
4374,76527504
13122,76527504
39366,76527504
472392,114791256
1417176,4251528
4251528,114791256
12754584,114791256
12754584,76527504
");
("5s4f_7.csv", "6,472392
18,472392
54,1417176
162,1417176
486,4251528
1458,25509168
4374,25509168
13122,76527504
39366,76527504
472392,25509168
1417176,76527504
4251528,25509168
4251528,76527504
");
("5s4f_70.csv", "6,472392
18,472392
54,1417176
162,4251528
486,1417176
1458,12754584
4374,76527504
13122,76527504
39366,76527504
472392,114791256
1417176,12754584
4251528,12754584
4251528,114791256
114791256,76527504
");
("5s4f_71.csv", "6,472392
18,472392
54,1417176
162,4251528
486,1417176
1458,12754584
4374,76527504
13122,76527504
39366,76527504
472392,114791256
1417176,12754584
4251528,114791256
4251528,76527504
12754584,114791256
");
("5s4f_72.csv", "6,472392
18,472392
54,1417176
162,4251528
486,1417176
1458,12754584
4374,76527504
13122,76527504
39366,76527504
472392,114791256
1417176,114791256
4251528,12754584
4251528,114791256
12754584,76527504
");
("5s4f_73.csv", "6,472392
18,472392
54,1417176
162,4251528
486,1417176
1458,12754584
4374,76527504
13122,76527504
39366,76527504
472392,114791256
1417176,114791256
4251528,12754584
4251528,76527504
12754584,114791256
");
("5s4f_74.csv", "6,472392
18,472392
54,1417176
162,4251528
486,12754584
1458,12754584
4374,38263752
13122,38263752
39366,229582512
472392,1417176
1417176,4251528
4251528,229582512
12754584,229582512
38263752,229582512
");
("5s4f_75.csv", "6,472392
18,472392
54,1417176
162,4251528
486,12754584
1458,12754584
4374,38263752
13122,38263752
39366,229582512
472392,229582512
1417176,4251528
1417176,12754584
4251528,229582512
38263752,229582512
");
("5s4f_76.csv", "6,472392
18,472392
54,1417176
162,4251528
486,12754584
1458,12754584
4374,38263752
13122,229582512
39366,229582512
472392,1417176
1417176,4251528
4251528,38263752
12754584,229582512
38263752,229582512
");
("5s4f_77.csv", "6,472392
18,472392
54,1417176
162,4251528
486,12754584
1458,12754584
4374,38263752
13122,229582512
39366,229582512
472392,1417176
1417176,4251528
4251528,229582512
12754584,38263752
38263752,229582512
");
("5s4f_78.csv", "6,472392
18,472392
54,1417176
162,4251528
486,12754584
1458,12754584
4374,38263752
13122,229582512
39366,229582512
472392,1417176
1417176,38263752
4251528,38263752
4251528,229582512
12754584,229582512
");
("5s4f_79.csv", "6,472392
18,472392
54,1417176
162,4251528
486,12754584
1458,12754584
4374,38263752
13122,229582512
39366,229582512
472392,38263752
1417176,4251528
1417176,12754584
4251528,229582512
38263752,229582512
");
("5s4f_8.csv", "6,472392
18,472392
54,1417176
162,1417176
486,8503056
1458,8503056
4374,8503056
13122,25509168
39366,25509168
472392,38263752
1417176,38263752
38263752,25509168
8503056,25509168
");
("5s4f_80.csv", "6,472392
18,472392
54,1417176
162,4251528
486,12754584
1458,12754584
4374,38263752
13122,229582512
39366,229582512
472392,38263752
1417176,4251528
1417176,38263752
4251528,229582512
12754584,229582512
");
("5s4f_81.csv", "6,472392
18,472392
54,1417176
162,4251528
486,12754584
1458,12754584
4374,38263752
13122,229582512
39366,229582512
472392,229582512
1417176,4251528
1417176,12754584
4251528,38263752
38263752,229582512
");
("5s4f_82.csv", "6,472392
18,472392
54,1417176
162,4251528
486,12754584
1458,12754584
4374,38263752
13122,229582512
39366,229582512
472392,229582512
1417176,4251528
1417176,38263752
4251528,229582512
12754584,38263752
");
("5s4f_83.csv", "6,472392
18,472392
54,1417176
162,4251528
486,12754584
1458,12754584
4374,38263752
13122,229582512
39366,229582512
472392,229582512
1417176,12754584
1417176,38263752
4251528,38263752
4251528,229582512
");
("5s4f_84.csv", "6,472392
18,472392
54,1417176
162,4251528
486,12754584
1458,12754584
4374,76527504
13122,76527504
39366,76527504
472392,1417176
1417176,4251528
4251528,114791256
12754584,114791256
114791256,76527504
");
("5s4f_85.csv", "6,472392
18,472392
54,1417176
162,4251528
486,12754584
1458,12754584
4374,76527504
13122,76527504
39366,76527504
472392,1417176
1417176,114791256
4251528,12754584
4251528,114791256
114791256,76527504
");
("5s4f_86.csv", "6,472392
18,472392
54,1417176
162,4251528
486,12754584
1458,12754584
4374,76527504
13122,76527504
39366,76527504
472392,1417176
1417176,114791256
4251528,114791256
4251528,76527504
12754584,114791256
");
("5s4f_87.csv", "6,472392
18,472392
54,1417176
162,4251528
486,12754584
1458,12754584
4374,76527504
13122,76527504
39366,76527504
472392,114791256
1417176,4251528
1417176,12754584
4251528,114791256
114791256,76527504
");
("5s4f_88.csv", "6,472392
18,472392
54,1417176
162,4251528
486,12754584
1458,12754584
4374,76527504
13122,76527504
39366,76527504
472392,114791256
1417176,4251528
1417176,114791256
4251528,76527504
12754584,114791256
");
("5s4f_89.csv", "6,472392
18,472392
54,1417176
162,4251528
486,12754584
1458,12754584
4374,76527504
13122,76527504
39366,76527504
472392,114791256
1417176,12754584
1417176,114791256
4251528,114791256
4251528,76527504
");
("5s4f_9.csv", "6,472392
18,472392
54,1417176
162,1417176
486,8503056
1458,8503056
4374,8503056
13122,25509168
39366,25509168
472392,38263752
1417176,25509168
38263752,8503056
38263752,25509168
");
("5s4f_90.csv", "6,472392
18,472392
54,1417176
162,4251528
486,12754584
1458,38263752
4374,229582512
13122,229582512
39366,229582512
472392,1417176
1417176,4251528
4251528,12754584
12754584,38263752
38263752,229582512
");
("5s4f_91.csv", "6,472392
18,472392
54,1417176
162,4251528
486,12754584
1458,38263752
4374,229582512
13122,229582512
39366,229582512
472392,1417176
1417176,12754584
4251528,12754584
4251528,38263752
38263752,229582512
");
("5s4f_92.csv", "6,472392
18,472392
54,1417176
162,4251528
486,12754584
1458,38263752
4374,229582512
13122,229582512
39366,229582512
472392,1417176
1417176,12754584
4251528,38263752
4251528,229582512
12754584,38263752
");
("5s4f_93.csv", "6,472392
18,472392
54,1417176
162,4251528
486,12754584
1458,38263752
4374,229582512
13122,229582512
39366,229582512
472392,12754584
1417176,4251528
1417176,12754584
4251528,38263752
38263752,229582512
");
("5s4f_94.csv", "6,472392
18,472392
54,1417176
162,4251528
486,12754584
1458,38263752
4374,229582512
13122,229582512
39366,229582512
472392,12754584
1417176,4251528
1417176,38263752
4251528,229582512
12754584,38263752
");
("5s4f_95.csv", "6,472392
18,472392
54,1417176
162,4251528
486,12754584
1458,38263752
4374,229582512
13122,229582512
39366,229582512
472392,12754584
1417176,12754584
1417176,38263752
4251528,38263752
4251528,229582512
");
("5s4f_96.csv", "6,472392
18,1417176
54,4251528
162,12754584
486,472392
1458,1417176
4374,4251528
13122,76527504
39366,76527504
472392,12754584
1417176,114791256
4251528,114791256
12754584,76527504
114791256,76527504
");
("5s4f_97.csv", "6,472392
18,1417176
54,4251528
162,12754584
486,472392
1458,1417176
4374,38263752
13122,38263752
39366,229582512
472392,4251528
1417176,12754584
4251528,229582512
12754584,229582512
38263752,229582512
");
("5s4f_98.csv", "6,472392
18,1417176
54,4251528
162,12754584
486,472392
1458,1417176
4374,38263752
13122,229582512
39366,229582512
472392,4251528
1417176,12754584
4251528,38263752
12754584,229582512
38263752,229582512
");
("5s4f_99.csv", "6,472392
18,1417176
54,4251528
162,12754584
486,472392
1458,1417176
4374,38263752
13122,229582512
39366,229582512
472392,4251528
1417176,38263752
4251528,229582512
12754584,38263752
12754584,229582512
");
("6s0f_1.csv", "6,34992
18,34992
54,34992
162,104976
486,104976
1458,104976
34992,104976
");
("6s0f_2.csv", "6,17496
18,17496
54,52488
162,52488
486,314928
1458,314928
17496,314928
52488,314928
");
("6s0f_3.csv", "6,17496
18,17496
54,52488
162,314928
486,314928
1458,314928
17496,52488
52488,314928
");
("6s0f_4.csv", "6,17496
18,17496
54,52488
162,52488
486,157464
1458,157464
17496,472392
52488,472392
157464,472392
");
("6s0f_5.csv", "6,17496
18,17496
54,52488
162,52488
486,157464
1458,472392
17496,157464
52488,472392
157464,472392
");
("6s2f_1.csv", "6,157464
18,157464
54,472392
162,472392
486,2834352
1458,2834352
4374,2834352
13122,8503056
157464,8503056
472392,8503056
2834352,8503056
");
("6s2f_10.csv", "6,157464
18,157464
54,472392
162,472392
486,1417176
1458,1417176
4374,4251528
13122,25509168
157464,25509168
472392,4251528
1417176,25509168
4251528,25509168
");
("6s2f_11.csv", "6,157464
18,157464
54,472392
162,472392
486,1417176
1458,1417176
4374,8503056
13122,8503056
157464,12754584
472392,12754584
1417176,8503056
12754584,8503056
");
("6s2f_12.csv", "6,157464
18,157464
54,472392
162,472392
486,1417176
1458,1417176
4374,8503056
13122,8503056
157464,8503056
472392,12754584
1417176,12754584
12754584,8503056
");
("6s2f_13.csv", "6,157464
18,157464
54,472392
162,472392
486,1417176
1458,4251528
4374,25509168
13122,25509168
157464,1417176
472392,4251528
1417176,25509168
4251528,25509168
");
("6s2f_14.csv", "6,157464
18,157464
54,472392
162,472392
486,1417176
1458,4251528
4374,25509168
13122,25509168
157464,1417176
472392,25509168
1417176,4251528
4251528,25509168
");
("6s2f_15.csv", "6,157464
18,157464
54,472392
162,472392
486,1417176
1458,4251528
4374,25509168
13122,25509168
157464,25509168
472392,1417176
1417176,4251528
4251528,25509168
");
("6s2f_16.csv", "6,157464
18,157464
54,472392
162,472392
486,1417176
1458,8503056
4374,8503056
13122,8503056
157464,1417176
472392,12754584
1417176,12754584
12754584,8503056
");
("6s2f_17.csv", "6,157464
18,157464
54,472392
162,472392
486,1417176
1458,8503056
4374,8503056
13122,8503056
157464,12754584
472392,1417176
1417176,12754584
12754584,8503056
");
("6s2f_18.csv", "6,157464
18,157464
54,472392
162,472392
486,1417176
1458,8503056
4374,8503056
13122,8503056
157464,12754584
472392,12754584
1417176,12754584
1417176,8503056
");
("6s2f_19.csv", "6,157464
18,157464
54,472392
162,1417176
486,4251528
1458,25509168
4374,25509168
13122,25509168
157464,472392
472392,1417176
1417176,4251528
4251528,25509168
");
("6s2f_2.csv", "6,157464
18,157464
54,472392
162,472392
486,2834352
1458,2834352
4374,8503056
13122,8503056
157464,2834352
472392,8503056
2834352,8503056
");
("6s2f_20.csv", "6,157464
18,472392
54,157464
162,472392
486,1417176
1458,1417176
4374,8503056
13122,8503056
157464,12754584
472392,12754584
1417176,8503056
12754584,8503056
");
("6s2f_21.csv", "6,157464
18,472392
54,157464
162,472392
486,1417176
1458,8503056
4374,8503056
13122,8503056
157464,1417176
472392,12754584
1417176,12754584
12754584,8503056
");
("6s2f_22.csv", "6,157464
18,472392
54,157464
162,472392
486,1417176
1458,8503056
4374,8503056
13122,8503056
157464,12754584
472392,12754584
1417176,12754584
1417176,8503056
");
("6s2f_23.csv", "6,157464
18,472392
54,157464
162,1417176
486,1417176
1458,4251528
4374,4251528
13122,25509168
157464,472392
472392,25509168
1417176,25509168
4251528,25509168
");
("6s2f_24.csv", "6,157464
18,472392
54,157464
162,1417176
486,1417176
1458,4251528
4374,25509168
13122,25509168
157464,472392
472392,4251528
1417176,25509168
4251528,25509168
");
("6s2f_25.csv", "6,157464
18,472392
54,157464
162,1417176
486,1417176
1458,4251528
4374,25509168
13122,25509168
157464,472392
472392,25509168
1417176,4251528
4251528,25509168
");
("6s2f_26.csv", "6,157464
18,472392
54,157464
162,1417176
486,1417176
1458,4251528
4374,25509168
13122,25509168
157464,4251528
472392,4251528
472392,25509168
1417176,25509168
");
("6s2f_27.csv", "6,157464
18,472392
54,157464
162,1417176
486,1417176
1458,8503056
4374,8503056
13122,8503056
157464,472392
472392,12754584
1417176,12754584
12754584,8503056
");
("6s2f_28.csv", "6,157464
18,472392
54,157464
162,1417176
486,1417176
1458,8503056
4374,8503056
13122,8503056
157464,12754584
472392,1417176
472392,12754584
12754584,8503056
");
("6s2f_29.csv", "6,157464
18,472392
54,157464
162,1417176
486,1417176
1458,8503056
4374,8503056
13122,8503056
157464,12754584
472392,12754584
472392,8503056
1417176,12754584
");
("6s2f_3.csv", "6,157464
18,157464
54,472392
162,2834352
486,2834352
1458,2834352
4374,8503056
13122,8503056
157464,472392
472392,8503056
2834352,8503056
");
("6s2f_30.csv", "6,157464
18,472392
54,157464
162,1417176
486,4251528
1458,25509168
4374,25509168
13122,25509168
157464,472392
472392,1417176
1417176,4251528
4251528,25509168
");
("6s2f_31.csv", "6,157464
18,472392
54,157464
162,1417176
486,4251528
1458,25509168
4374,25509168
13122,25509168
157464,1417176
472392,1417176
472392,4251528
4251528,25509168
");
("6s2f_32.csv", "6,157464
18,472392
54,157464
162,1417176
486,4251528
1458,25509168
4374,25509168
13122,25509168
157464,1417176
472392,4251528
472392,25509168
1417176,4251528
");
("6s2f_33.csv", "6,157464
18,472392
54,1417176
162,1417176
486,4251528
1458,4251528
4374,25509168
13122,25509168
157464,472392
157464,1417176
472392,25509168
4251528,25509168
");
("6s2f_34.csv", "6,157464
18,472392
54,1417176
162,1417176
486,4251528
1458,25509168
4374,25509168
13122,25509168
157464,472392
157464,1417176
472392,4251528
4251528,25509168
");
("6s2f_35.csv", "6,157464
18,472392
54,1417176
162,1417176
486,4251528
1458,25509168
4374,25509168
13122,25509168
157464,472392
157464,4251528
472392,25509168
1417176,4251528
");
("6s2f_36.csv", "6,157464
18,472392
54,1417176
162,1417176
486,4251528
1458,25509168
4374,25509168
13122,25509168
157464,1417176
157464,4251528
472392,4251528
472392,25509168
");
("6s2f_37.csv", "6,157464
18,157464
54,472392
162,472392
486,1417176
1458,1417176
4374,4251528
13122,4251528
157464,12754584
472392,12754584
1417176,38263752
4251528,38263752
12754584,38263752
");
("6s2f_38.csv", "6,157464
18,157464
54,472392
162,472392
486,1417176
1458,1417176
4374,4251528
13122,12754584
157464,4251528
472392,12754584
1417176,38263752
4251528,38263752
12754584,38263752
");
("6s2f_39.csv", "6,157464
18,157464
54,472392
162,472392
486,1417176
1458,1417176
4374,4251528
13122,12754584
157464,4251528
472392,38263752
1417176,38263752
4251528,12754584
12754584,38263752
");
("6s2f_4.csv", "6,157464
18,157464
54,472392
162,2834352
486,2834352
1458,2834352
4374,8503056
13122,8503056
157464,8503056
472392,2834352
472392,8503056
");
("6s2f_40.csv", "6,157464
18,157464
54,472392
162,472392
486,1417176
1458,1417176
4374,4251528
13122,12754584
157464,38263752
472392,4251528
1417176,12754584
4251528,38263752
12754584,38263752
");
("6s2f_41.csv", "6,157464
18,157464
54,472392
162,472392
486,1417176
1458,1417176
4374,4251528
13122,12754584
157464,38263752
472392,4251528
1417176,38263752
4251528,12754584
12754584,38263752
");
("6s2f_42.csv", "6,157464
18,157464
54,472392
162,472392
486,1417176
1458,4251528
4374,12754584
13122,38263752
157464,1417176
472392,4251528
1417176,12754584
4251528,38263752
12754584,38263752
");
("6s2f_43.csv", "6,157464
18,472392
54,157464
162,472392
486,1417176
1458,1417176
4374,4251528
13122,4251528
157464,12754584
472392,12754584
1417176,38263752
4251528,38263752
12754584,38263752
");
("6s2f_44.csv", "6,157464
18,472392
54,157464
162,472392
486,1417176
1458,1417176
4374,4251528
13122,4251528
157464,12754584
472392,38263752
1417176,12754584
4251528,38263752
12754584,38263752
");
("6s2f_45.csv", "6,157464
18,472392
54,157464
162,472392
486,1417176
1458,1417176
4374,4251528
13122,12754584
157464,4251528
472392,12754584
1417176,38263752
4251528,38263752
12754584,38263752
");
("6s2f_46.csv", "6,157464
18,472392
54,157464
162,472392
486,1417176
1458,1417176
4374,4251528
13122,12754584
157464,4251528
472392,38263752
1417176,12754584
4251528,38263752
12754584,38263752
");
("6s2f_47.csv", "6,157464
18,472392
54,157464
162,472392
486,1417176
1458,1417176
4374,4251528
13122,12754584
157464,4251528
472392,38263752
1417176,38263752
4251528,12754584
12754584,38263752
");
("6s2f_48.csv", "6,157464
18,472392
54,157464
162,472392
486,1417176
1458,1417176
4374,4251528
13122,12754584
157464,38263752
472392,38263752
1417176,4251528
4251528,12754584
12754584,38263752
");
("6s2f_49.csv", "6,157464
18,472392
54,157464
162,472392
486,1417176
1458,4251528
4374,12754584
13122,38263752
157464,1417176
472392,4251528
1417176,12754584
4251528,38263752
12754584,38263752
");
("6s2f_5.csv", "6,157464
18,157464
54,944784
162,944784
486,944784
1458,2834352
4374,2834352
13122,2834352
157464,4251528
4251528,944784
4251528,2834352
");
("6s2f_50.csv", "6,157464
18,472392
54,157464
162,1417176
486,1417176
1458,4251528
4374,4251528
13122,12754584
157464,472392
472392,12754584
1417176,38263752
4251528,38263752
12754584,38263752
");
("6s2f_51.csv", "6,157464
18,472392
54,157464
162,1417176
486,1417176
1458,4251528
4374,4251528
13122,12754584
157464,472392
472392,38263752
1417176,12754584
4251528,38263752
12754584,38263752
");
("6s2f_52.csv", "6,157464
18,472392
54,157464
162,1417176
486,1417176
1458,4251528
4374,4251528
13122,12754584
157464,12754584
472392,1417176
472392,38263752
4251528,38263752
12754584,38263752
");
("6s2f_53.csv", "6,157464
18,472392
54,157464
162,1417176
486,1417176
1458,4251528
4374,4251528
13122,12754584
157464,12754584
472392,12754584
472392,38263752
1417176,38263752
4251528,38263752
");
("6s2f_54.csv", "6,157464
18,472392
54,157464
162,1417176
486,1417176
1458,4251528
4374,4251528
13122,12754584
157464,38263752
472392,1417176
472392,12754584
4251528,38263752
12754584,38263752
");
("6s2f_55.csv", "6,157464
18,472392
54,157464
162,1417176
486,1417176
1458,4251528
4374,4251528
13122,12754584
157464,38263752
472392,1417176
472392,38263752
4251528,12754584
12754584,38263752
");
("6s2f_56.csv", "6,157464
18,472392
54,157464
162,1417176
486,1417176
1458,4251528
4374,4251528
13122,12754584
157464,38263752
472392,12754584
472392,38263752
1417176,12754584
4251528,38263752
");
("6s2f_57.csv", "6,157464
18,472392
54,157464
162,1417176
486,1417176
1458,4251528
4374,12754584
13122,38263752
157464,472392
472392,4251528
1417176,12754584
4251528,38263752
12754584,38263752
");
("6s2f_58.csv", "6,157464
18,472392
54,157464
162,1417176
486,1417176
1458,4251528
4374,12754584
13122,38263752
157464,4251528
472392,1417176
472392,12754584
4251528,38263752
12754584,38263752
");
("6s2f_59.csv", "6,157464
18,472392
54,157464
162,1417176
486,1417176
1458,4251528
4374,12754584
13122,38263752
157464,4251528
472392,4251528
472392,12754584
1417176,38263752
12754584,38263752
");
("6s2f_6.csv", "6,157464
18,472392
54,157464
162,2834352
486,2834352
1458,2834352
4374,8503056
13122,8503056
157464,472392
472392,8503056
2834352,8503056
");
("6s2f_60.csv", "6,157464
18,472392
54,157464
162,1417176
486,1417176
1458,4251528
4374,12754584
13122,38263752
157464,4251528
472392,12754584
472392,38263752
1417176,12754584
4251528,38263752
");
("6s2f_61.csv", "6,157464
18,472392
54,1417176
162,1417176
486,4251528
1458,4251528
4374,12754584
13122,12754584
157464,472392
157464,1417176
472392,38263752
4251528,38263752
12754584,38263752
");
("6s2f_62.csv", "6,157464
18,472392
54,1417176
162,1417176
486,4251528
1458,4251528
4374,12754584
13122,12754584
157464,1417176
157464,38263752
472392,4251528
472392,38263752
12754584,38263752
");
("6s2f_63.csv", "6,157464
18,472392
54,1417176
162,1417176
486,4251528
1458,4251528
4374,12754584
13122,38263752
157464,472392
157464,1417176
472392,12754584
4251528,38263752
12754584,38263752
");
("6s2f_64.csv", "6,157464
18,472392
54,1417176
162,1417176
486,4251528
1458,4251528
4374,12754584
13122,38263752
157464,472392
157464,12754584
472392,38263752
1417176,12754584
4251528,38263752
");
("6s2f_65.csv", "6,157464
18,472392
54,1417176
162,1417176
486,4251528
1458,4251528
4374,12754584
13122,38263752
157464,1417176
157464,12754584
472392,4251528
472392,38263752
12754584,38263752
");
("6s2f_66.csv", "6,157464
18,472392
54,1417176
162,1417176
486,4251528
1458,4251528
4374,12754584
13122,38263752
157464,1417176
157464,12754584
472392,12754584
472392,38263752
4251528,38263752
");
("6s2f_7.csv", "6,157464
18,472392
54,2834352
162,2834352
486,2834352
1458,8503056
4374,8503056
13122,8503056
157464,472392
157464,2834352
472392,8503056
");
("6s2f_8.csv", "6,157464
18,157464
54,472392
162,472392
486,1417176
1458,1417176
4374,4251528
13122,4251528
157464,25509168
472392,25509168
1417176,25509168
4251528,25509168
");
("6s2f_9.csv", "6,157464
18,157464
54,472392
162,472392
486,1417176
1458,1417176
4374,4251528
13122,25509168
157464,4251528
472392,25509168
1417176,25509168
4251528,25509168
")
].

Definition diagrams_dir : list (string * string) := [
("0s4f_1.png", "");
("0s6f_1.png", "");
("0s6f_2.png", "");
("1s4f_1.png", "");
("1s4f_2.png", "");
("2s2f_1.png", "");
("2s2f_2.png", "");
("2s4f_1.png", "");
("2s4f_2.png", "");
("2s4f_3.png", "");
("2s4f_4.png", "");
("2s4f_5.png", "");
("2s4f_6.png", "");
("2s4f_7.png", "");
("2s4f_8.png", "");
("2s6f_1.png", "");
("2s6f_10.png", "");
("2s6f_11.png", "");
("2s6f_12.png", "");
("2s6f_13.png", "");
("2s6f_14.png", "");
("2s6f_15.png", "");
("2s6f_16.png", "");
("2s6f_17.png", "");
("2s6f_18.png", "");
("2s6f_19.png", "");
("2s6f_2.png", "");
("2s6f_20.png", "");
("2s6f_21.png", "");
("2s6f_22.png", "");
("2s6f_23.png", "");
("2s6f_24.png", "");
("2s6f_25.png", "");
("2s6f_26.png", "");
("2s6f_27.png", "");
("2s6f_28.png", "");
("2s6f_29.png", "");
("2s6f_3.png", "");
("2s6f_30.png", "");
("2s6f_31.png", "");
("2s6f_32.png", "");
("2s6f_33.png", "");
("2s6f_34.png", "");
("2s6f_35.png", "");
("2s6f_4.png", "");
("2s6f_5.png", "");
("2s6f_6.png", "");
("2s6f_7.png", "");
("2s6f_8.png", "");
("2s6f_9.png", "");
("3s2f_1.png", "");
("3s2f_2.png", "");
("3s2f_3.png", "");
("3s2f_4.png", "");
("3s4f_1.png", "");
("3s4f_10.png", "");
("3s4f_11.png", "");
("3s4f_12.png", "");
("3s4f_13.png", "");
("3s4f_14.png", "");
("3s4f_15.png", "");
("3s4f_16.png", "");
("3s4f_17.png", "");
("3s4f_18.png", "");
("3s4f_19.png", "");
("3s4f_2.png", "");
("3s4f_20.png", "");
("3s4f_21.png", "");
("3s4f_22.png", "");
("3s4f_23.png", "");
("3s4f_3.png", "");
("3s4f_4.png", "");
("3s4f_5.png", "");
("3s4f_6.png", "");
("3s4f_7.png", "");
("3s4f_8.png", "");
("3s4f_9.png", "");
("4s0f_1.png", "");
("4s2f_1.png", "");
("4s2f_10.png", "");
("4s2f_2.png", "");
("4s2f_3.png", "");
("4s2f_4.png", "");
("4s2f_5.png", "");
("4s2f_6.png", "");
("4s2f_7.png", "");
("4s2f_8.png", "");
("4s2f_9.png", "");
("5s2f_1.png", "");
("5s2f_10.png", "");
("5s2f_11.png", "");
("5s2f_12.png", "");
("5s2f_13.png", "");
("5s2f_14.png", "");
("5s2f_15.png", "");
("5s2f_16.png", "");
("5s2f_17.png", "");
("5s2f_18.png", "");
("5s2f_19.png", "");
("5s2f_2.png", "");
("5s2f_20.png", "");
("5s2f_21.png", "");
("5s2f_22.png", "");
("5s2f_23.png", "");
("5s2f_24.png", "");
("5s2f_3.png", "");
("5s2f_4.png", "");
("5s2f_5.png", "");
("5s2f_6.png", "");
("5s2f_7.png", "");
("5s2f_8.png", "");
("5s2f_9.png", "");
("5s4f_1.png", "");
("5s4f_10.png", "");
("5s4f_100.png", "");
("5s4f_101.png", "");
("5s4f_102.png", "");
("5s4f_103.png", "");
("5s4f_104.png", "");
("5s4f_105.png", "");
("5s4f_106.png", "");
("5s4f_107.png", "");
("5s4f_108.png", "");
("5s4f_109.png", "");
("5s4f_11.png", "");
("5s4f_110.png", "");
("5s4f_111.png", "");
("5s4f_112.png", "");
("5s4f_113.png", "");
("5s4f_114.png", "");
("5s4f_115.png", "");
("5s4f_116.png", "");
("5s4f_117.png", "");
("5s4f_118.png", "");
("5s4f_119.png", "");
("5s4f_12.png", "");
("5s4f_120.png", "");
("5s4f_121.png", "");
("5s4f_122.png", "");
("5s4f_123.png", "");
("5s4f_124.png", "");
("5s4f_125.png", "");
("5s4f_126.png", "");
("5s4f_127.png", "");
("5s4f_128.png", "");
("5s4f_129.png", "");
("5s4f_13.png", "");
("5s4f_130.png", "");
("5s4f_131.png", "");
("5s4f_132.png", "");
("5s4f_133.png", "");
("5s4f_134.png", "");
("5s4f_135.png", "");
("5s4f_136.png", "");
("5s4f_137.png", "");
("5s4f_138.png", "");
("5s4f_139.png", "");
("5s4f_14.png", "");
("5s4f_140.png", "");
("5s4f_141.png", "");
("5s4f_142.png", "");
("5s4f_143.png", "");
("5s4f_144.png", "");
("5s4f_145.png", "");
("5s4f_146.png", "");
("5s4f_147.png", "");
("5s4f_148.png", "");
("5s4f_149.png", "");
("5s4f_15.png", "");
("5s4f_150.png", "");
("5s4f_151.png", "");
("5s4f_152.png", "");
("5s4f_153.png", "");
("5s4f_154.png", "");
("5s4f_155.png", "");
("5s4f_156.png", "");
("5s4f_157.png", "");
("5s4f_158.png", "");
("5s4f_159.png", "");
("5s4f_16.png", "");
("5s4f_160.png", "");
("5s4f_161.png", "");
("5s4f_162.png", "");
("5s4f_163.png", "");
("5s4f_164.png", "");
("5s4f_165.png", "");
("5s4f_166.png", "");
("5s4f_167.png", "");
("5s4f_168.png", "");
("5s4f_169.png", "");
("5s4f_17.png", "");
("5s4f_170.png", "");
("5s4f_171.png", "");
("5s4f_172.png", "");
("5s4f_173.png", "");
("5s4f_174.png", "");
("5s4f_175.png", "");
("5s4f_176.png", "");
("5s4f_177.png", "");
("5s4f_178.png", "");
("5s4f_179.png", "");
("5s4f_18.png", "");
("5s4f_180.png", "");
("5s4f_181.png", "");
("5s4f_182.png", "");
("5s4f_183.png", "");
("5s4f_184.png", "");
("5s4f_185.png", "");
("5s4f_186.png", "");
("5s4f_187.png", "");
("5s4f_188.png", "");
("5s4f_189.png", "");
("5s4f_19.png", "");
("5s4f_190.png", "");
("5s4f_191.png", "");
("5s4f_192.png", "");
("5s4f_193.png", "");
("5s4f_194.png", "");
("5s4f_195.png", "");
("5s4f_196.png", "");
("5s4f_197.png", "");
("5s4f_198.png", "");
("5s4f_199.png", "");
("5s4f_2.png", "");
("5s4f_20.png", "");
("5s4f_200.png", "");
("5s4f_201.png", "");
("5s4f_202.png", "");
("5s4f_203.png", "");
("5s4f_204.png", "");
("5s4f_205.png", "");
("5s4f_206.png", "");
("5s4f_207.png", "");
("5s4f_208.png", "");
("5s4f_209.png", "");
("5s4f_21.png", "");
("5s4f_210.png", "");
("5s4f_211.png", "");
("5s4f_212.png", "");
("5s4f_213.png", "");
("5s4f_214.png", "");
("5s4f_215.png", "");
("5s4f_216.png", "");
("5s4f_217.png", "");
("5s4f_218.png", "");
("5s4f_219.png", "");
("5s4f_22.png", "");
("5s4f_220.png", "");
("5s4f_221.png", "");
("5s4f_222.png", "");
("5s4f_223.png", "");
("5s4f_224.png", "");
("5s4f_225.png", "");
("5s4f_226.png", "");
("5s4f_227.png", "");
("5s4f_228.png", "");
("5s4f_229.png", "");
("5s4f_23.png", "");
("5s4f_230.png", "");
("5s4f_231.png", "");
("5s4f_232.png", "");
("5s4f_233.png", "");
("5s4f_234.png", "");
("5s4f_235.png", "");
("5s4f_236.png", "");
("5s4f_237.png", "");
("5s4f_238.png", "");
("5s4f_239.png", "");
("5s4f_24.png", "");
("5s4f_240.png", "");
("5s4f_241.png", "");
("5s4f_242.png", "");
("5s4f_243.png", "");
("5s4f_244.png", "");
("5s4f_245.png", "");
("5s4f_246.png", "");
("5s4f_247.png", "");
("5s4f_248.png", "");
("5s4f_249.png", "");
("5s4f_25.png", "");
("5s4f_250.png", "");
("5s4f_251.png", "");
("5s4f_252.png", "");
("5s4f_253.png", "");
("5s4f_254.png", "");
("5s4f_255.png", "");
("5s4f_256.png", "");
("5s4f_257.png", "");
("5s4f_258.png", "");
("5s4f_259.png", "");
("5s4f_26.png", "");
("5s4f_260.png", "");
("5s4f_261.png", "");
("5s4f_262.png", "");
("5s4f_263.png", "");
("5s4f_264.png", "");
("5s4f_27.png", "");
("5s4f_28.png", "");
("5s4f_29.png", "");
("5s4f_3.png", "");
("5s4f_30.png", "");
("5s4f_31.png", "");
("5s4f_32.png", "");
("5s4f_33.png", "");
("5s4f_34.png", "");
("5s4f_35.png", "");
("5s4f_36.png", "");
("5s4f_37.png", "");
("5s4f_38.png", "");
("5s4f_39.png", "");
("5s4f_4.png", "");
("5s4f_40.png", "");
("5s4f_41.png", "");
("5s4f_42.png", "");
("5s4f_43.png", "");
("5s4f_44.png", "");
("5s4f_45.png", "");
("5s4f_46.png", "");
("5s4f_47.png", "");
("5s4f_48.png", "");
("5s4f_49.png", "");
("5s4f_5.png", "");
("5s4f_50.png", "");
("5s4f_51.png", "");
("5s4f_52.png", "");
("5s4f_53.png", "");
("5s4f_54.png", "");
("5s4f_55.png", "");
("5s4f_56.png", "");
("5s4f_57.png", "");
("5s4f_58.png", "");
("5s4f_59.png", "");
("5s4f_6.png", "");
("5s4f_60.png", "");
("5s4f_61.png", "");
("5s4f_62.png", "");
("5s4f_63.png", "");
("5s4f_64.png", "");
("5s4f_65.png", "");
("5s4f_66.png", "");
("5s4f_67.png", "");
("5s4f_68.png", "");
("5s4f_69.png", "");
("5s4f_7.png", "");
("5s4f_70.png", "");
("5s4f_71.png", "");
("5s4f_72.png", "");
("5s4f_73.png", "");
("5s4f_74.png", "");
("5s4f_75.png", "");
("5s4f_76.png", "");
("5s4f_77.png", "");
("5s4f_78.png", "");
("5s4f_79.png", "");
("5s4f_8.png", "");
("5s4f_80.png", "");
("5s4f_81.png", "");
("5s4f_82.png", "");
("5s4f_83.png", "");
("5s4f_84.png", "");
("5s4f_85.png", "");
("5s4f_86.png", "");
("5s4f_87.png", "");
("5s4f_88.png", "");
("5s4f_89.png", "");
("5s4f_9.png", "");
("5s4f_90.png", "");
("5s4f_91.png", "");
("5s4f_92.png", "");
("5s4f_93.png", "");
("5s4f_94.png", "");
("5s4f_95.png", "");
("5s4f_96.png", "");
("5s4f_97.png", "");
("5s4f_98.png", "");
("5s4f_99.png", "");
("6s0f_1.png", "");
("6s0f_2.png", "");
("6s0f_3.png", "");
("6s0f_4.png", "");
("6s0f_5.png", "");
("6s2f_1.png", "");
("6s2f_10.png", "");
("6s2f_11.png", "");
("6s2f_12.png", "");
("6s2f_13.png", "");
("6s2f_14.png", "");
("6s2f_15.png", "");
("6s2f_16.png", "");
("6s2f_17.png", "");
("6s2f_18.png", "");
("6s2f_19.png", "");
("6s2f_2.png", "");
("6s2f_20.png", "");
("6s2f_21.png", "");
("6s2f_22.png", "");
("6s2f_23.png", "");
("6s2f_24.png", "");
("6s2f_25.png", "");
("6s2f_26.png", "");
("6s2f_27.png", "");
("6s2f_28.png", "");
("6s2f_29.png", "");
("6s2f_3.png", "");
("6s2f_30.png", "");
("6s2f_31.png", "");
("6s2f_32.png", "");
("6s2f_33.png", "");
("6s2f_34.png", "");
("6s2f_35.png", "");
("6s2f_36.png", "");
("6s2f_37.png", "");
("6s2f_38.png", "");
("6s2f_39.png", "");
("6s2f_4.png", "");
("6s2f_40.png", "");
("6s2f_41.png", "");
("6s2f_42.png", "");
("6s2f_43.png", "");
("6s2f_44.png", "");
("6s2f_45.png", "");
("6s2f_46.png", "");
("6s2f_47.png", "");
("6s2f_48.png", "");
("6s2f_49.png", "");
("6s2f_5.png", "");
("6s2f_50.png", "");
("6s2f_51.png", "");
("6s2f_52.png", "");
("6s2f_53.png", "");
("6s2f_54.png", "");
("6s2f_55.png", "");
("6s2f_56.png", "");
("6s2f_57.png", "");
("6s2f_58.png", "");
("6s2f_59.png", "");
("6s2f_6.png", "");
("6s2f_60.png", "");
("6s2f_61.png", "");
("6s2f_62.png", "");
("6s2f_63.png", "");
("6s2f_64.png", "");
("6s2f_65.png", "");
("6s2f_66.png", "");
("6s2f_7.png", "");
("6s2f_8.png", "");
("6s2f_9.png", "")
].
