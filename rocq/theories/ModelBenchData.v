(** The numeric tables of the benchmark functions in
    [src/rbfopt/rbfopt_test_functions.py]: the rows [a], [p], [c] of the
    Hartman and Shekel functions, the 50 stationary points [z] and values
    [f] of each Schoen function, copied literally from the file as exact
    rationals (0.298854 is 298854/1000000).  Generated by a script from the
    Python syntax tree; every definition cites the class it comes from. *)
From Coq Require Import List QArith.
Import ListNotations.
Open Scope Q_scope.

(** src/rbfopt/rbfopt_test_functions.py:46-75, [hartman3.a]. *)
Definition hartman3_a : list (list Q) :=
   [ [3; 1#10; 3; 1#10];
     [10; 10; 10; 10];
     [30; 35; 30; 35] ].

(** src/rbfopt/rbfopt_test_functions.py:46-75, [hartman3.p]. *)
Definition hartman3_p : list (list Q) :=
   [ [3689#10000; 4699#10000; 1091#10000; 3815#100000];
     [117#1000; 4387#10000; 8732#10000; 5743#10000];
     [2673#10000; 747#1000; 5547#10000; 8828#10000] ].

(** src/rbfopt/rbfopt_test_functions.py:46-75, [hartman3.c]. *)
Definition hartman3_c : list Q :=
   [1; 12#10; 3; 32#10].

(** src/rbfopt/rbfopt_test_functions.py:79-114, [hartman6.a]. *)
Definition hartman6_a : list (list Q) :=
   [ [10; 5#100; 3; 17];
     [3; 10; 35#10; 8];
     [17; 17; 17#10; 5#100];
     [35#10; 1#10; 10; 10];
     [17#10; 8; 17; 1#10];
     [8; 14; 8; 14] ].

(** src/rbfopt/rbfopt_test_functions.py:79-114, [hartman6.p]. *)
Definition hartman6_p : list (list Q) :=
   [ [1312#10000; 2329#10000; 2348#10000; 4047#10000];
     [1696#10000; 4135#10000; 1451#10000; 8828#10000];
     [5569#10000; 8307#10000; 3522#10000; 8732#10000];
     [124#10000; 3736#10000; 2883#10000; 5743#10000];
     [8283#10000; 1004#10000; 3047#10000; 1091#10000];
     [5886#10000; 9991#10000; 665#1000; 381#10000] ].

(** src/rbfopt/rbfopt_test_functions.py:79-114, [hartman6.c]. *)
Definition hartman6_c : list Q :=
   [1; 12#10; 3; 32#10].

(** src/rbfopt/rbfopt_test_functions.py:164-189, [shekel5.a]. *)
Definition shekel5_a : list (list Q) :=
   [ [4; 1; 8; 6; 3];
     [4; 1; 8; 6; 7];
     [4; 1; 8; 6; 3];
     [4; 1; 8; 6; 7] ].

(** src/rbfopt/rbfopt_test_functions.py:164-189, [shekel5.c]. *)
Definition shekel5_c : list Q :=
   [1#10; 2#10; 2#10; 4#10; 4#10].

(** src/rbfopt/rbfopt_test_functions.py:193-219, [shekel7.a]. *)
Definition shekel7_a : list (list Q) :=
   [ [4; 1; 8; 6; 3; 2; 5];
     [4; 1; 8; 6; 7; 9; 5];
     [4; 1; 8; 6; 3; 2; 3];
     [4; 1; 8; 6; 7; 9; 3] ].

(** src/rbfopt/rbfopt_test_functions.py:193-219, [shekel7.c]. *)
Definition shekel7_c : list Q :=
   [1#10; 2#10; 2#10; 4#10; 4#10; 6#10; 3#10].

(** src/rbfopt/rbfopt_test_functions.py:223-248, [shekel10.a]. *)
Definition shekel10_a : list (list Q) :=
   [ [4; 1; 8; 6; 3; 2; 5; 8; 6; 7];
     [4; 1; 8; 6; 7; 9; 5; 1; 2; 36#10];
     [4; 1; 8; 6; 3; 2; 3; 8; 6; 7];
     [4; 1; 8; 6; 7; 9; 3; 1; 2; 36#10] ].

(** src/rbfopt/rbfopt_test_functions.py:223-248, [shekel10.c]. *)
Definition shekel10_c : list Q :=
   [1#10; 2#10; 2#10; 4#10; 4#10; 6#10; 3#10; 7#10; 5#10; 5#10].

(** src/rbfopt/rbfopt_test_functions.py:281-296, [ex4_1_2.a]. *)
Definition ex4_1_2_a : list Q :=
   [(-500); 25#10; 1666666666#1000000000; 125#100; 1; 8333333#10000000; 714285714#1000000000; 625#1000;
     555555555#1000000000; 1; -436363636#10000000; 41666666#100000000; 384615384#1000000000;
     357142857#1000000000; 3333333#10000000; 3125#10000; 294117647#1000000000; 277777777#1000000000;
     263157894#1000000000; 25#100; 238095238#1000000000; 227272727#1000000000; 217391304#1000000000;
     208333333#1000000000; 2#10; 192307692#1000000000; 185185185#1000000000; 178571428#1000000000;
     344827586#1000000000; 6666666#10000000; -1548387097#100000000; 15625#100000; 1515151#10000000;
     14705882#100000000; 14285712#100000000; 138888888#1000000000; 135135135#1000000000;
     131578947#1000000000; 128205128#1000000000; 125#1000; 121951219#1000000000; 119047619#1000000000;
     116279069#1000000000; 113636363#1000000000; 1111111#10000000; 108695652#1000000000;
     106382978#1000000000; 208333333#1000000000; 408163265#1000000000; 8#10].

(** src/rbfopt/rbfopt_test_functions.py:449-539, [schoen_6_1.z]. *)
Definition schoen_6_1_z : list (list Q) :=
   [ [298854#1000000; 18101#100000; 984817#1000000; 125272#1000000; 548396#1000000; 894658#1000000];
     [800371#1000000; 81738#100000; 398577#1000000; 652349#1000000; 250843#1000000; 130235#1000000];
     [268631#1000000; 929778#1000000; 640422#1000000; 462004#1000000; 49293#100000; 434955#1000000];
     [257863#1000000; 729198#1000000; 21081#100000; 364378#1000000; 228216#1000000; 947432#1000000];
     [767627#1000000; 59215#100000; 103788#1000000; 696895#1000000; 472449#1000000; 244504#1000000];
     [36963#100000; 110889#1000000; 72344#1000000; 515753#1000000; 68087#1000000; 103057#1000000];
     [425457#1000000; 807081#1000000; 491209#1000000; 449497#1000000; 6569#100000; 592775#1000000];
     [544229#1000000; 619841#1000000; 704609#1000000; 573098#1000000; 44844#1000000; 3058#10000];
     [164031#1000000; 722884#1000000; 670496#1000000; 517915#1000000; 176386#1000000; 921565#1000000];
     [153788#1000000; 703577#1000000; 899129#1000000; 406134#1000000; 941356#1000000; 538215#1000000];
     [984781#1000000; 510479#1000000; 573361#1000000; 884599#1000000; 399472#1000000; 712935#1000000];
     [488416#1000000; 403997#1000000; 888823#1000000; 48434#1000000; 265197#1000000; 478025#1000000];
     [47985#1000000; 280071#1000000; 70996#100000; 278919#1000000; 35737#1000000; 37699#1000000];
     [656172#1000000; 498412#1000000; 458622#1000000; 98297#100000; 41234#1000000; 921127#1000000];
     [590802#1000000; 35969#100000; 396516#1000000; 338153#1000000; 320793#1000000; 847369#1000000];
     [64916#100000; 846974#1000000; 451818#1000000; 64864#1000000; 818545#1000000; 955844#1000000];
     [583716#1000000; 66961#100000; 463098#1000000; 49271#100000; 98969#100000; 2397#1000000];
     [973#10000; 112389#1000000; 128759#1000000; 182995#1000000; 262808#1000000; 701887#1000000];
     [487363#1000000; 89252#100000; 269056#1000000; 116046#1000000; 905416#1000000; 808013#1000000];
     [908316#1000000; 23997#1000000; 670399#1000000; 985859#1000000; 178548#1000000; 45041#100000];
     [230409#1000000; 381732#1000000; 613667#1000000; 69726#100000; 1695#100000; 736507#1000000];
     [132544#1000000; 526349#1000000; 650042#1000000; 84086#1000000; 979257#1000000; 771499#1000000];
     [872978#1000000; 8826#1000000; 587481#1000000; 624637#1000000; 623175#1000000; 939539#1000000];
     [447828#1000000; 836386#1000000; 223285#1000000; 422756#1000000; 344488#1000000; 555953#1000000];
     [546839#1000000; 153934#1000000; 953017#1000000; 640891#1000000; 666774#1000000; 647583#1000000];
     [762237#1000000; 60892#100000; 401447#1000000; 56202#1000000; 203535#1000000; 890609#1000000];
     [65515#100000; 444544#1000000; 495582#1000000; 247926#1000000; 155128#1000000; 188004#1000000];
     [481813#1000000; 387178#1000000; 597276#1000000; 634671#1000000; 285404#1000000; 714793#1000000];
     [976385#1000000; 18854#1000000; 262585#1000000; 640434#1000000; 86314#1000000; 669879#1000000];
     [120164#1000000; 8823#10000; 57626#1000000; 695111#1000000; 735135#1000000; 4711#1000000];
     [414644#1000000; 715618#1000000; 642033#1000000; 770645#1000000; 407019#1000000; 502945#1000000];
     [257475#1000000; 620029#1000000; 840603#1000000; 638546#1000000; 636521#1000000; 883558#1000000];
     [78898#100000; 374926#1000000; 448016#1000000; 81941#1000000; 225763#1000000; 944905#1000000];
     [661591#1000000; 178832#1000000; 790349#1000000; 141653#1000000; 424235#1000000; 57196#100000];
     [546361#1000000; 624907#1000000; 19047#100000; 412713#1000000; 124748#1000000; 662788#1000000];
     [226384#1000000; 65829#1000000; 960836#1000000; 767766#1000000; 89695#1000000; 441792#1000000];
     [303675#1000000; 370047#1000000; 973692#1000000; 830432#1000000; 424719#1000000; 173571#1000000];
     [548375#1000000; 823234#1000000; 334253#1000000; 78398#1000000; 97269#1000000; 19512#100000];
     [646225#1000000; 100478#1000000; 723833#1000000; 891035#1000000; 386094#1000000; 360272#1000000];
     [362757#1000000; 1147#10000; 73102#100000; 783785#1000000; 250399#1000000; 244399#1000000];
     [904335#1000000; 869074#1000000; 479004#1000000; 525872#1000000; 359411#1000000; 338333#1000000];
     [563175#1000000; 245903#1000000; 694417#1000000; 833524#1000000; 205055#1000000; 132535#1000000];
     [401356#1000000; 920963#1000000; 401902#1000000; 120625#1000000; 765834#1000000; 381552#1000000];
     [769562#1000000; 279591#1000000; 567598#1000000; 17192#1000000; 697366#1000000; 813451#1000000];
     [738572#1000000; 98474#100000; 7616#1000000; 5382#1000000; 592976#1000000; 771773#1000000];
     [683721#1000000; 824097#1000000; 731623#1000000; 936945#1000000; 18242#100000; 393537#1000000];
     [375859#1000000; 541929#1000000; 97464#100000; 377459#1000000; 75406#100000; 19335#1000000];
     [410275#1000000; 619158#1000000; 148428#1000000; 419225#1000000; 637412#1000000; 204038#1000000];
     [552701#1000000; 472723#1000000; 491747#1000000; 17922#1000000; 198525#1000000; 74668#1000000];
     [74951#100000; 15872#100000; 395476#1000000; 528285#1000000; 143614#1000000; 96161#100000] ].

(** src/rbfopt/rbfopt_test_functions.py:449-539, [schoen_6_1.f]. *)
Definition schoen_6_1_f : list Q :=
   [(-1000); (-1000); (-1000); 6722#10; 8614#10; 5209#10; 121; 115#10; 482#10; 7024#10; 5362#10;
     4577#10; 8013#10; 7877#10; 7686#10; 2924#10; 960; 5731#10; 3037#10; 2833#10; 4741#10; 2169#10;
     4622#10; 8536#10; 6771#10; 4646#10; 8306#10; 8318#10; 1096#10; 9676#10; 1229#10; 8962#10; 4902#10;
     7104#10; 811#10; 8029#10; 9998#10; 9455#10; 6723#10; 7129#10; 2358#10; 2665#10; 7724#10; 3266#10;
     5855#10; 169#10; 1359#10; 2242#10; 3821#10; 6146#10].

(** src/rbfopt/rbfopt_test_functions.py:543-633, [schoen_6_2.z]. *)
Definition schoen_6_2_z : list (list Q) :=
   [ [669711#1000000; 81554#100000; 64612#100000; 377447#1000000; 111538#1000000; 40529#1000000];
     [632#1000000; 706804#1000000; 857031#1000000; 473778#1000000; 993569#1000000; 616184#1000000];
     [625617#1000000; 880221#1000000; 534547#1000000; 760235#1000000; 276998#1000000; 735438#1000000];
     [774577#1000000; 922914#1000000; 947791#1000000; 315328#1000000; 414841#1000000; 785803#1000000];
     [79768#1000000; 131498#1000000; 225123#1000000; 464621#1000000; 638041#1000000; 992795#1000000];
     [471038#1000000; 244503#1000000; 565776#1000000; 898397#1000000; 604639#1000000; 30623#100000];
     [642233#1000000; 482219#1000000; 34943#1000000; 934805#1000000; 972714#1000000; 153664#1000000];
     [550151#1000000; 310507#1000000; 42126#1000000; 230722#1000000; 444375#1000000; 117355#1000000];
     [789984#1000000; 488482#1000000; 65237#1000000; 84294#100000; 793454#1000000; 799489#1000000];
     [850183#1000000; 754551#1000000; 516033#1000000; 166362#1000000; 201966#1000000; 44234#1000000];
     [601#1000000; 896758#1000000; 304433#1000000; 149125#1000000; 178398#1000000; 871836#1000000];
     [56787#1000000; 932745#1000000; 218009#1000000; 778061#1000000; 131847#1000000; 356237#1000000];
     [210266#1000000; 221479#1000000; 14831#1000000; 200901#1000000; 656693#1000000; 891819#1000000];
     [528515#1000000; 178025#1000000; 188138#1000000; 411485#1000000; 217833#1000000; 907579#1000000];
     [195801#1000000; 663099#1000000; 477312#1000000; 39525#100000; 655791#1000000; 82057#100000];
     [933208#1000000; 789323#1000000; 35052#100000; 855434#1000000; 491082#1000000; 874993#1000000];
     [251047#1000000; 543513#1000000; 529644#1000000; 218495#1000000; 351637#1000000; 608904#1000000];
     [963286#1000000; 793004#1000000; 650148#1000000; 881362#1000000; 904832#1000000; 5397#1000000];
     [431744#1000000; 438965#1000000; 44544#1000000; 834968#1000000; 330614#1000000; 451282#1000000];
     [234845#1000000; 328576#1000000; 388284#1000000; 339183#1000000; 206086#1000000; 600034#1000000];
     [512783#1000000; 961787#1000000; 959109#1000000; 632098#1000000; 910614#1000000; 912025#1000000];
     [454168#1000000; 743189#1000000; 834284#1000000; 955817#1000000; 72172#1000000; 523068#1000000];
     [696968#1000000; 720236#1000000; 34106#100000; 5458#100000; 45599#1000000; 549192#1000000];
     [272955#1000000; 318845#1000000; 700767#1000000; 426325#1000000; 895755#1000000; 843128#1000000];
     [992189#1000000; 332899#1000000; 272784#1000000; 19284#1000000; 73711#1000000; 4348#10000];
     [154276#1000000; 639611#1000000; 924641#1000000; 587242#1000000; 358453#1000000; 548022#1000000];
     [21506#1000000; 450392#1000000; 51515#100000; 32232#1000000; 650223#1000000; 849384#1000000];
     [316499#1000000; 513234#1000000; 958219#1000000; 843587#1000000; 125408#1000000; 836643#1000000];
     [538587#1000000; 26175#100000; 732136#1000000; 30271#1000000; 893345#1000000; 270532#1000000];
     [987469#1000000; 70878#100000; 446487#1000000; 968784#1000000; 734448#1000000; 788229#1000000];
     [353358#1000000; 135036#1000000; 249018#1000000; 565029#1000000; 740519#1000000; 250807#1000000];
     [810372#1000000; 65651#100000; 472093#1000000; 225741#1000000; 420513#1000000; 202519#1000000];
     [848128#1000000; 551586#1000000; 51314#100000; 956164#1000000; 483389#1000000; 404478#1000000];
     [292239#1000000; 297077#1000000; 934202#1000000; 468329#1000000; 872274#1000000; 992632#1000000];
     [828869#1000000; 534749#1000000; 716451#1000000; 405855#1000000; 164485#1000000; 531068#1000000];
     [130616#1000000; 757677#1000000; 2845#10000; 4383#10000; 957643#1000000; 725899#1000000];
     [503542#1000000; 640368#1000000; 381914#1000000; 847206#1000000; 13466#100000; 762294#1000000];
     [653851#1000000; 646544#1000000; 436036#1000000; 944225#1000000; 310369#1000000; 392362#1000000];
     [539397#1000000; 27168#1000000; 697972#1000000; 209293#1000000; 99289#100000; 8113#1000000];
     [902045#1000000; 171034#1000000; 194924#1000000; 620057#1000000; 2203#1000000; 557433#1000000];
     [802612#1000000; 85835#1000000; 380626#1000000; 492568#1000000; 238166#1000000; 961837#1000000];
     [466993#1000000; 647847#1000000; 113397#1000000; 15357#1000000; 928904#1000000; 166425#1000000];
     [892021#1000000; 869756#1000000; 681364#1000000; 129555#1000000; 394682#1000000; 745036#1000000];
     [60675#1000000; 869904#1000000; 757236#1000000; 220765#1000000; 615988#1000000; 754288#1000000];
     [31815#1000000; 340961#1000000; 455958#1000000; 529616#1000000; 840036#1000000; 3652#10000];
     [834595#1000000; 603639#1000000; 74533#100000; 8508#100000; 184636#1000000; 238718#1000000];
     [575681#1000000; 250761#1000000; 874497#1000000; 870401#1000000; 854591#1000000; 968971#1000000];
     [359629#1000000; 72483#100000; 455053#1000000; 120311#1000000; 258563#1000000; 932004#1000000];
     [209891#1000000; 990298#1000000; 767661#1000000; 284193#1000000; 375076#1000000; 154363#1000000];
     [410402#1000000; 437385#1000000; 639614#1000000; 946647#1000000; 579466#1000000; 524775#1000000] ].

(** src/rbfopt/rbfopt_test_functions.py:543-633, [schoen_6_2.f]. *)
Definition schoen_6_2_f : list Q :=
   [(-1000); (-1000); (-1000); 1096#10; 1324#10; 5582#10; 158; 62#10; 2054#10; 5939#10; 24#10; 3998#10;
     3959#10; 2126#10; 9761#10; 1044#10; 5521#10; 4363#10; 8371#10; 2837#10; 7797#10; 3921#10; 858#10;
     8851#10; 4015#10; 3675#10; 6944#10; 6916#10; 9331#10; 5907#10; 2462#10; 370; 543#10; 7194#10;
     952#10; 276; 8291#10; 6136#10; 2428#10; 4246#10; 3206#10; 6661#10; 4792#10; 420; 9566#10; 241;
     211#10; 1698#10; 1781#10; 3944#10].

(** src/rbfopt/rbfopt_test_functions.py:637-778, [schoen_10_1.z]. *)
Definition schoen_10_1_z : list (list Q) :=
   [ [914871#1000000; 76523#100000; 139426#1000000; 617466#1000000; 823635#1000000; 794003#1000000;
      801171#1000000; 568811#1000000; 279434#1000000; 540422#1000000];
     [976983#1000000; 593277#1000000; 701115#1000000; 585262#1000000; 669106#1000000; 272906#1000000;
      177127#1000000; 143389#1000000; 561181#1000000; 18744#1000000];
     [385208#1000000; 984106#1000000; 390066#1000000; 90597#100000; 1696#10000; 191291#1000000;
      564157#1000000; 68991#100000; 857031#1000000; 71539#100000];
     [975998#1000000; 536904#1000000; 819333#1000000; 801793#1000000; 564454#1000000; 336124#1000000;
      65419#100000; 44197#1000000; 717416#1000000; 465807#1000000];
     [750519#1000000; 415284#1000000; 258927#1000000; 736115#1000000; 597744#1000000; 763716#1000000;
      747691#1000000; 969633#1000000; 188117#1000000; 964954#1000000];
     [412888#1000000; 671756#1000000; 380214#1000000; 558595#1000000; 76837#100000; 99832#100000;
      212183#1000000; 606757#1000000; 531315#1000000; 303569#1000000];
     [196682#1000000; 139879#1000000; 108608#1000000; 736975#1000000; 755971#1000000; 2139#100000;
      852398#1000000; 188596#1000000; 920133#1000000; 45012#1000000];
     [95627#100000; 729258#1000000; 397664#1000000; 13146#1000000; 519861#1000000; 300011#1000000;
      8396#1000000; 820346#1000000; 176841#1000000; 402298#1000000];
     [126432#1000000; 872346#1000000; 923581#1000000; 297492#1000000; 992744#1000000; 486525#1000000;
      915493#1000000; 58998#100000; 498242#1000000; 989945#1000000];
     [697409#1000000; 26641#1000000; 875467#1000000; 503039#1000000; 563285#1000000; 96769#1000000;
      933643#1000000; 884419#1000000; 585825#1000000; 395465#1000000];
     [494783#1000000; 8243#10000; 153326#1000000; 202651#1000000; 579815#1000000; 416954#1000000;
      707624#1000000; 497959#1000000; 568876#1000000; 812841#1000000];
     [126963#1000000; 757337#1000000; 648583#1000000; 787445#1000000; 822586#1000000; 401155#1000000;
      30135#100000; 562707#1000000; 744074#1000000; 88372#1000000];
     [293611#1000000; 835864#1000000; 925111#1000000; 760322#1000000; 729456#1000000; 9684#100000;
      651466#1000000; 975836#1000000; 691353#1000000; 38384#1000000];
     [99925#100000; 916829#1000000; 205699#1000000; 27241#1000000; 156956#1000000; 206598#1000000;
      175242#1000000; 811219#1000000; 660192#1000000; 119865#1000000];
     [387978#1000000; 66518#100000; 774376#1000000; 135223#1000000; 766238#1000000; 380668#1000000;
      58279#1000000; 727506#1000000; 991527#1000000; 345759#1000000];
     [299341#1000000; 66231#1000000; 680305#1000000; 39223#100000; 319985#1000000; 698292#1000000;
      100236#1000000; 394973#1000000; 96232#1000000; 362943#1000000];
     [281548#1000000; 860858#1000000; 64787#100000; 98165#100000; 110777#1000000; 836484#1000000;
      697387#1000000; 659942#1000000; 694425#1000000; 434991#1000000];
     [606706#1000000; 52287#1000000; 858208#1000000; 738885#1000000; 158495#1000000; 2367#1000000;
      933796#1000000; 112986#1000000; 647308#1000000; 421573#1000000];
     [776505#1000000; 101364#1000000; 610406#1000000; 275033#1000000; 548409#1000000; 998967#1000000;
      536743#1000000; 943903#1000000; 960993#1000000; 251672#1000000];
     [371347#1000000; 491122#1000000; 772374#1000000; 860206#1000000; 752131#1000000; 338591#1000000;
      826739#1000000; 312111#1000000; 768881#1000000; 862719#1000000];
     [866886#1000000; 35822#100000; 131205#1000000; 276334#1000000; 334111#1000000; 429525#1000000;
      752197#1000000; 167524#1000000; 437764#1000000; 162916#1000000];
     [584246#1000000; 511215#1000000; 659647#1000000; 34922#100000; 954428#1000000; 477982#1000000;
      386041#1000000; 813944#1000000; 75353#100000; 983276#1000000];
     [697327#1000000; 499835#1000000; 530487#1000000; 599958#1000000; 497257#1000000; 998852#1000000;
      106262#1000000; 186978#1000000; 887481#1000000; 749174#1000000];
     [41611#1000000; 278918#1000000; 999095#1000000; 825221#1000000; 21832#100000; 383711#1000000;
      77041#1000000; 642061#1000000; 668906#1000000; 758298#1000000];
     [72437#1000000; 592862#1000000; 40655#1000000; 44633#100000; 651659#1000000; 55738#1000000;
      631924#1000000; 890039#1000000; 192989#1000000; 741054#1000000];
     [533886#1000000; 135079#1000000; 787647#1000000; 593408#1000000; 749228#1000000; 749045#1000000;
      190386#1000000; 755508#1000000; 465321#1000000; 465156#1000000];
     [748843#1000000; 696419#1000000; 882124#1000000; 843895#1000000; 858057#1000000; 220107#1000000;
      35031#100000; 102947#1000000; 453576#1000000; 87594#100000];
     [560231#1000000; 580247#1000000; 381834#1000000; 807535#1000000; 184636#1000000; 615702#1000000;
      628408#1000000; 81783#1000000; 793384#1000000; 233639#1000000];
     [384827#1000000; 589138#1000000; 630013#1000000; 634506#1000000; 630712#1000000; 521293#1000000;
      494486#1000000; 6817#10000; 288512#1000000; 319808#1000000];
     [721978#1000000; 452289#1000000; 426726#1000000; 323106#1000000; 781584#1000000; 999325#1000000;
      4367#100000; 88456#100000; 520936#1000000; 430684#1000000];
     [810388#1000000; 624041#1000000; 811624#1000000; 105973#1000000; 199807#1000000; 440644#1000000;
      864152#1000000; 28228#100000; 397116#1000000; 499932#1000000];
     [973889#1000000; 677797#1000000; 80137#1000000; 549098#1000000; 625445#1000000; 577342#1000000;
      538642#1000000; 388039#1000000; 552273#1000000; 793807#1000000];
     [365176#1000000; 228017#1000000; 6235#10000; 8445#100000; 177343#1000000; 910108#1000000;
      632719#1000000; 521458#1000000; 894843#1000000; 707893#1000000];
     [502069#1000000; 622312#1000000; 958019#1000000; 744999#1000000; 515695#1000000; 407885#1000000;
      590739#1000000; 736542#1000000; 297555#1000000; 237955#1000000];
     [313835#1000000; 90014#1000000; 336274#1000000; 433171#1000000; 330864#1000000; 105751#1000000;
      160367#1000000; 651934#1000000; 20726#100000; 293577#1000000];
     [886072#1000000; 592935#1000000; 498116#1000000; 321835#1000000; 11216#1000000; 543911#1000000;
      506579#1000000; 216779#1000000; 406812#1000000; 261349#1000000];
     [789947#1000000; 881332#1000000; 696597#1000000; 742955#1000000; 252224#1000000; 718157#1000000;
      188217#1000000; 371208#1000000; 17864#100000; 34772#100000];
     [482759#1000000; 663618#1000000; 622706#1000000; 3617#100000; 278854#1000000; 88147#1000000;
      482808#1000000; 134824#1000000; 28828#1000000; 944537#1000000];
     [184705#1000000; 662346#1000000; 917194#1000000; 18649#100000; 918392#1000000; 955111#1000000;
      636015#1000000; 447595#1000000; 813716#1000000; 372839#1000000];
     [231741#1000000; 637199#1000000; 745257#1000000; 201568#1000000; 697485#1000000; 897022#1000000;
      239791#1000000; 495219#1000000; 153831#1000000; 387172#1000000];
     [198061#1000000; 194102#1000000; 550259#1000000; 751804#1000000; 503973#1000000; 34252#1000000;
      788267#1000000; 73176#100000; 118338#1000000; 57247#1000000];
     [6847#100000; 54518#100000; 668845#1000000; 714932#1000000; 688014#1000000; 203845#1000000;
      146138#1000000; 109039#1000000; 470214#1000000; 441797#1000000];
     [8518#100000; 142394#1000000; 938665#1000000; 71422#1000000; 946796#1000000; 697832#1000000;
      4724#10000; 161384#1000000; 325715#1000000; 12255#100000];
     [637672#1000000; 986961#1000000; 969438#1000000; 989508#1000000; 381318#1000000; 800871#1000000;
      12035#1000000; 326007#1000000; 459124#1000000; 645374#1000000];
     [14721#100000; 954608#1000000; 361146#1000000; 94699#1000000; 92327#1000000; 301664#1000000;
      478447#1000000; 8274#1000000; 680576#1000000; 4184#1000000];
     [768792#1000000; 812618#1000000; 915766#1000000; 2907#100000; 506944#1000000; 457816#1000000;
      839167#1000000; 24706#1000000; 990756#1000000; 88779#1000000];
     [872678#1000000; 601536#1000000; 948347#1000000; 621023#1000000; 415621#1000000; 28934#100000;
      291338#1000000; 190461#1000000; 664007#1000000; 583513#1000000];
     [641216#1000000; 700152#1000000; 80576#1000000; 3555#10000; 2947#10000; 338614#1000000;
      563964#1000000; 528079#1000000; 759223#1000000; 508432#1000000];
     [738489#1000000; 77376#1000000; 429485#1000000; 300586#1000000; 576927#1000000; 185931#1000000;
      231659#1000000; 954833#1000000; 614178#1000000; 92903#1000000];
     [729321#1000000; 318607#1000000; 768657#1000000; 899419#1000000; 749499#1000000; 623403#1000000;
      671793#1000000; 52835#1000000; 973726#1000000; 168336#1000000] ].

(** src/rbfopt/rbfopt_test_functions.py:637-778, [schoen_10_1.f]. *)
Definition schoen_10_1_f : list Q :=
   [(-1000); (-1000); (-1000); 7991#10; 3968#10; 3703#10; 4002#10; 2397#10; 6788#10; 8689#10; 5644#10;
     6816#10; 153; 7607#10; 5629#10; 4349#10; 5792#10; 2606#10; 885#10; 6013#10; 7548#10; 8948#10;
     6728#10; 6337#10; 9218#10; 432#10; 2862#10; 9455#10; 716; 727#10; 6312#10; 6403#10; 4251#10;
     8258#10; 5558#10; 1369#10; 8057#10; 7865#10; 400; 8564#10; 548; 5108#10; 523#10; 1116#10; 6866#10;
     8882#10; 3154#10; 3339#10; 615#10; 7552#10].

(** src/rbfopt/rbfopt_test_functions.py:782-924, [schoen_10_2.z]. *)
Definition schoen_10_2_z : list (list Q) :=
   [ [131461#1000000; 965235#1000000; 46134#1000000; 983011#1000000; 719813#1000000; 827542#1000000;
      662422#1000000; 570546#1000000; 578707#1000000; 13264#1000000];
     [68454#1000000; 682785#1000000; 582736#1000000; 434517#1000000; 310613#1000000; 869876#1000000;
      993949#1000000; 629156#1000000; 590599#1000000; 356378#1000000];
     [632837#1000000; 961665#1000000; 15079#1000000; 378878#1000000; 805608#1000000; 685239#1000000;
      528658#1000000; 752934#1000000; 71779#100000; 374865#1000000];
     [286191#1000000; 912944#1000000; 400358#1000000; 902532#1000000; 324887#1000000; 850063#1000000;
      483503#1000000; 764147#1000000; 147726#1000000; 159851#1000000];
     [303483#1000000; 75479#100000; 90527#1000000; 653764#1000000; 164323#1000000; 402931#1000000;
      593477#1000000; 448444#1000000; 711483#1000000; 113869#1000000];
     [57398#1000000; 302029#1000000; 596351#1000000; 565466#1000000; 694204#1000000; 974864#1000000;
      323989#1000000; 298493#1000000; 859391#1000000; 238714#1000000];
     [139267#1000000; 214902#1000000; 608462#1000000; 297987#1000000; 49981#100000; 578553#1000000;
      548077#1000000; 208442#1000000; 46162#1000000; 246848#1000000];
     [68042#100000; 783181#1000000; 828103#1000000; 47581#100000; 680401#1000000; 188455#1000000;
      152#10000; 650103#1000000; 762389#1000000; 63985#1000000];
     [409243#1000000; 60074#100000; 302354#1000000; 588411#1000000; 436291#1000000; 29479#100000;
      701477#1000000; 994162#1000000; 433749#1000000; 53532#100000];
     [77949#1000000; 530126#1000000; 869737#1000000; 387811#1000000; 705317#1000000; 632911#1000000;
      442087#1000000; 82918#1000000; 441383#1000000; 591975#1000000];
     [622628#1000000; 54964#1000000; 20475#1000000; 145616#1000000; 163873#1000000; 321546#1000000;
      282867#1000000; 743494#1000000; 750568#1000000; 732386#1000000];
     [538574#1000000; 66932#1000000; 225204#1000000; 290045#1000000; 613242#1000000; 529365#1000000;
      384018#1000000; 946557#1000000; 974384#1000000; 425297#1000000];
     [108817#1000000; 850094#1000000; 886417#1000000; 161581#1000000; 82973#1000000; 506354#1000000;
      58965#100000; 638991#1000000; 45151#1000000; 688464#1000000];
     [917742#1000000; 365119#1000000; 484176#1000000; 173231#1000000; 210253#1000000; 303688#1000000;
      992141#1000000; 23109#1000000; 977178#1000000; 535146#1000000];
     [183469#1000000; 198085#1000000; 511596#1000000; 27561#100000; 7537#10000; 437328#1000000;
      986237#1000000; 28654#1000000; 767921#1000000; 99791#100000];
     [484908#1000000; 759122#1000000; 577318#1000000; 359934#1000000; 93573#100000; 617833#1000000;
      770173#1000000; 311175#1000000; 4831#1000000; 157457#1000000];
     [634077#1000000; 236972#1000000; 16427#1000000; 261753#1000000; 349712#1000000; 24587#100000;
      412238#1000000; 523557#1000000; 985327#1000000; 9406#100000];
     [477875#1000000; 803438#1000000; 496728#1000000; 84892#100000; 497386#1000000; 938203#1000000;
      279797#1000000; 287076#1000000; 395184#1000000; 980546#1000000];
     [450215#1000000; 193712#1000000; 975838#1000000; 103925#1000000; 7741#100000; 709573#1000000;
      253072#1000000; 311723#1000000; 885664#1000000; 204528#1000000];
     [557312#1000000; 815198#1000000; 97914#1000000; 539142#1000000; 826048#1000000; 13007#100000;
      49858#1000000; 223634#1000000; 76387#1000000; 831224#1000000];
     [927559#1000000; 324916#1000000; 563393#1000000; 209281#1000000; 344394#1000000; 953384#1000000;
      298679#1000000; 890637#1000000; 966615#1000000; 380006#1000000];
     [26403#1000000; 997573#1000000; 479163#1000000; 379686#1000000; 687928#1000000; 832002#1000000;
      214326#1000000; 348248#1000000; 73151#1000000; 62646#1000000];
     [726869#1000000; 911171#1000000; 96192#100000; 874884#1000000; 216867#1000000; 76966#1000000;
      77624#100000; 495777#1000000; 963492#1000000; 425246#1000000];
     [357483#1000000; 48633#100000; 759177#1000000; 748362#1000000; 889904#1000000; 350438#1000000;
      232983#1000000; 823613#1000000; 792656#1000000; 441264#1000000];
     [875826#1000000; 359459#1000000; 214808#1000000; 42585#100000; 493328#1000000; 456048#1000000;
      523145#1000000; 504154#1000000; 90128#1000000; 472437#1000000];
     [8134#10000; 808407#1000000; 427211#1000000; 902524#1000000; 210376#1000000; 490662#1000000;
      915939#1000000; 169439#1000000; 78865#1000000; 485371#1000000];
     [877334#1000000; 982207#1000000; 679085#1000000; 486335#1000000; 940715#1000000; 585964#1000000;
      289279#1000000; 694886#1000000; 172625#1000000; 201457#1000000];
     [141599#1000000; 476124#1000000; 762246#1000000; 67045#1000000; 411332#1000000; 813196#1000000;
      134138#1000000; 30239#100000; 856145#1000000; 349243#1000000];
     [346912#1000000; 82142#1000000; 787442#1000000; 857465#1000000; 371129#1000000; 44855#100000;
      967943#1000000; 77534#100000; 943681#1000000; 656127#1000000];
     [619267#1000000; 547196#1000000; 470422#1000000; 141566#1000000; 584198#1000000; 952226#1000000;
      196462#1000000; 629549#1000000; 685469#1000000; 824365#1000000];
     [14209#1000000; 789812#1000000; 836373#1000000; 186139#1000000; 49384#100000; 710697#1000000;
      910033#1000000; 368287#1000000; 865953#1000000; 140892#1000000];
     [482763#1000000; 72574#1000000; 2673#100000; 143687#1000000; 739505#1000000; 419649#1000000;
      13683#1000000; 662644#1000000; 785254#1000000; 234561#1000000];
     [821421#1000000; 8441#10000; 153937#1000000; 671762#1000000; 290469#1000000; 631347#1000000;
      591435#1000000; 498966#1000000; 43395#1000000; 176771#1000000];
     [404994#1000000; 496656#1000000; 951774#1000000; 497357#1000000; 715401#1000000; 23378#1000000;
      493045#1000000; 342766#1000000; 117055#1000000; 69859#100000];
     [985857#1000000; 831692#1000000; 423498#1000000; 215757#1000000; 34126#100000; 79076#100000;
      941186#1000000; 716883#1000000; 62641#1000000; 582012#1000000];
     [676905#1000000; 280897#1000000; 800638#1000000; 898913#1000000; 735995#1000000; 592412#1000000;
      433021#1000000; 432772#1000000; 874477#1000000; 112375#1000000];
     [377382#1000000; 118941#1000000; 529204#1000000; 419434#1000000; 673891#1000000; 74904#1000000;
      129868#1000000; 819585#1000000; 220536#1000000; 353223#1000000];
     [233415#1000000; 136703#1000000; 487256#1000000; 777498#1000000; 901915#1000000; 612402#1000000;
      778635#1000000; 436718#1000000; 48452#100000; 641969#1000000];
     [273297#1000000; 670196#1000000; 344525#1000000; 669751#1000000; 18023#100000; 530085#1000000;
      393284#1000000; 326043#1000000; 26084#100000; 36469#100000];
     [931213#1000000; 676123#1000000; 912481#1000000; 898258#1000000; 1887#1000000; 408306#1000000;
      917215#1000000; 496959#1000000; 287951#1000000; 562511#1000000];
     [47196#1000000; 780338#1000000; 895994#1000000; 88169#1000000; 552425#1000000; 13079#100000;
      308504#1000000; 232476#1000000; 187952#1000000; 105936#1000000];
     [343517#1000000; 356222#1000000; 416018#1000000; 450278#1000000; 487765#1000000; 4051#100000;
      592363#1000000; 771635#1000000; 577849#1000000; 315843#1000000];
     [527759#1000000; 529503#1000000; 210423#1000000; 756794#1000000; 89267#100000; 339374#1000000;
      445837#1000000; 363265#1000000; 432114#1000000; 942045#1000000];
     [560107#1000000; 110906#1000000; 115725#1000000; 761393#1000000; 969105#1000000; 921166#1000000;
      455014#1000000; 593512#1000000; 111887#1000000; 2173#10000];
     [463382#1000000; 635591#1000000; 329484#1000000; 573602#1000000; 492558#1000000; 474174#1000000;
      371906#1000000; 850465#1000000; 467637#1000000; 261373#1000000];
     [33051#1000000; 422543#1000000; 294155#1000000; 699026#1000000; 846231#1000000; 47967#1000000;
      686826#1000000; 480273#1000000; 463181#1000000; 345601#1000000];
     [285473#1000000; 723925#1000000; 202386#1000000; 671909#1000000; 685277#1000000; 993969#1000000;
      415329#1000000; 155218#1000000; 233826#1000000; 88752#1000000];
     [29705#1000000; 651519#1000000; 813239#1000000; 677718#1000000; 961189#1000000; 285385#1000000;
      824635#1000000; 83767#100000; 52497#100000; 815489#1000000];
     [519627#1000000; 508274#1000000; 141067#1000000; 156163#1000000; 274566#1000000; 536322#1000000;
      834749#1000000; 852042#1000000; 656166#1000000; 964211#1000000];
     [119675#1000000; 971352#1000000; 52983#1000000; 178217#1000000; 408438#1000000; 215091#1000000;
      102098#1000000; 256312#1000000; 51758#1000000; 906712#1000000] ].

(** src/rbfopt/rbfopt_test_functions.py:782-924, [schoen_10_2.f]. *)
Definition schoen_10_2_f : list Q :=
   [(-1000); (-1000); (-1000); 904#10; 8309#10; 527#10; 3752#10; 2897#10; 2441#10; 4702#10; 1117#10;
     9689#10; 9034#10; 9185#10; 8203#10; 4412#10; 6875#10; 8369#10; 11; 4545#10; 9293#10; 9526#10;
     9372#10; 8705#10; 2117#10; 3784#10; 3203#10; 7296#10; 4208#10; 2138#10; 7177#10; 2854#10; 5228#10;
     7483#10; 371; 5012#10; 5686#10; 1119#10; 6452#10; 4862#10; 157; 9685#10; 1376#10; 1272#10; 9434#10;
     4372#10; 1997#10; 4154#10; 966; 3623#10].

(** src/rbfopt/rbfopt_test_functions.py:1423-1515, [schoen_6_1_int.z]. *)
Definition schoen_6_1_int_z : list (list Q) :=
   [ [298854#1000000; 18101#100000; 984817#1000000; 125272#1000000; 548396#1000000; 894658#1000000];
     [800371#1000000; 81738#100000; 398577#1000000; 652349#1000000; 250843#1000000; 130235#1000000];
     [268631#1000000; 929778#1000000; 640422#1000000; 462004#1000000; 49293#100000; 434955#1000000];
     [257863#1000000; 729198#1000000; 21081#100000; 364378#1000000; 228216#1000000; 947432#1000000];
     [767627#1000000; 59215#100000; 103788#1000000; 696895#1000000; 472449#1000000; 244504#1000000];
     [36963#100000; 110889#1000000; 72344#1000000; 515753#1000000; 68087#1000000; 103057#1000000];
     [425457#1000000; 807081#1000000; 491209#1000000; 449497#1000000; 6569#100000; 592775#1000000];
     [544229#1000000; 619841#1000000; 704609#1000000; 573098#1000000; 44844#1000000; 3058#10000];
     [164031#1000000; 722884#1000000; 670496#1000000; 517915#1000000; 176386#1000000; 921565#1000000];
     [153788#1000000; 703577#1000000; 899129#1000000; 406134#1000000; 941356#1000000; 538215#1000000];
     [984781#1000000; 510479#1000000; 573361#1000000; 884599#1000000; 399472#1000000; 712935#1000000];
     [488416#1000000; 403997#1000000; 888823#1000000; 48434#1000000; 265197#1000000; 478025#1000000];
     [47985#1000000; 280071#1000000; 70996#100000; 278919#1000000; 35737#1000000; 37699#1000000];
     [656172#1000000; 498412#1000000; 458622#1000000; 98297#100000; 41234#1000000; 921127#1000000];
     [590802#1000000; 35969#100000; 396516#1000000; 338153#1000000; 320793#1000000; 847369#1000000];
     [64916#100000; 846974#1000000; 451818#1000000; 64864#1000000; 818545#1000000; 955844#1000000];
     [583716#1000000; 66961#100000; 463098#1000000; 49271#100000; 98969#100000; 2397#1000000];
     [973#10000; 112389#1000000; 128759#1000000; 182995#1000000; 262808#1000000; 701887#1000000];
     [487363#1000000; 89252#100000; 269056#1000000; 116046#1000000; 905416#1000000; 808013#1000000];
     [908316#1000000; 23997#1000000; 670399#1000000; 985859#1000000; 178548#1000000; 45041#100000];
     [230409#1000000; 381732#1000000; 613667#1000000; 69726#100000; 1695#100000; 736507#1000000];
     [132544#1000000; 526349#1000000; 650042#1000000; 84086#1000000; 979257#1000000; 771499#1000000];
     [872978#1000000; 8826#1000000; 587481#1000000; 624637#1000000; 623175#1000000; 939539#1000000];
     [447828#1000000; 836386#1000000; 223285#1000000; 422756#1000000; 344488#1000000; 555953#1000000];
     [546839#1000000; 153934#1000000; 953017#1000000; 640891#1000000; 666774#1000000; 647583#1000000];
     [762237#1000000; 60892#100000; 401447#1000000; 56202#1000000; 203535#1000000; 890609#1000000];
     [65515#100000; 444544#1000000; 495582#1000000; 247926#1000000; 155128#1000000; 188004#1000000];
     [481813#1000000; 387178#1000000; 597276#1000000; 634671#1000000; 285404#1000000; 714793#1000000];
     [976385#1000000; 18854#1000000; 262585#1000000; 640434#1000000; 86314#1000000; 669879#1000000];
     [120164#1000000; 8823#10000; 57626#1000000; 695111#1000000; 735135#1000000; 4711#1000000];
     [414644#1000000; 715618#1000000; 642033#1000000; 770645#1000000; 407019#1000000; 502945#1000000];
     [257475#1000000; 620029#1000000; 840603#1000000; 638546#1000000; 636521#1000000; 883558#1000000];
     [78898#100000; 374926#1000000; 448016#1000000; 81941#1000000; 225763#1000000; 944905#1000000];
     [661591#1000000; 178832#1000000; 790349#1000000; 141653#1000000; 424235#1000000; 57196#100000];
     [546361#1000000; 624907#1000000; 19047#100000; 412713#1000000; 124748#1000000; 662788#1000000];
     [226384#1000000; 65829#1000000; 960836#1000000; 767766#1000000; 89695#1000000; 441792#1000000];
     [303675#1000000; 370047#1000000; 973692#1000000; 830432#1000000; 424719#1000000; 173571#1000000];
     [548375#1000000; 823234#1000000; 334253#1000000; 78398#1000000; 97269#1000000; 19512#100000];
     [646225#1000000; 100478#1000000; 723833#1000000; 891035#1000000; 386094#1000000; 360272#1000000];
     [362757#1000000; 1147#10000; 73102#100000; 783785#1000000; 250399#1000000; 244399#1000000];
     [904335#1000000; 869074#1000000; 479004#1000000; 525872#1000000; 359411#1000000; 338333#1000000];
     [563175#1000000; 245903#1000000; 694417#1000000; 833524#1000000; 205055#1000000; 132535#1000000];
     [401356#1000000; 920963#1000000; 401902#1000000; 120625#1000000; 765834#1000000; 381552#1000000];
     [769562#1000000; 279591#1000000; 567598#1000000; 17192#1000000; 697366#1000000; 813451#1000000];
     [738572#1000000; 98474#100000; 7616#1000000; 5382#1000000; 592976#1000000; 771773#1000000];
     [683721#1000000; 824097#1000000; 731623#1000000; 936945#1000000; 18242#100000; 393537#1000000];
     [375859#1000000; 541929#1000000; 97464#100000; 377459#1000000; 75406#100000; 19335#1000000];
     [4#10; 6#10; 1#10; 4#10; 637412#1000000; 204038#1000000];
     [5#10; 4#10; 4#10; 0; 198525#1000000; 74668#1000000];
     [7#10; 1#10; 3#10; 5#10; 143614#1000000; 96161#100000] ].

(** src/rbfopt/rbfopt_test_functions.py:1423-1515, [schoen_6_1_int.f]. *)
Definition schoen_6_1_int_f : list Q :=
   [6722#10; 8614#10; 5209#10; 121; 115#10; 482#10; 7024#10; 5362#10; 4577#10; 8013#10; 7877#10;
     7686#10; 2924#10; 960; 5731#10; 3037#10; 2833#10; 4741#10; 2169#10; 4622#10; 8536#10; 6771#10;
     4646#10; 8306#10; 8318#10; 1096#10; 9676#10; 1229#10; 8962#10; 4902#10; 7104#10; 811#10; 8029#10;
     9998#10; 9455#10; 6723#10; 7129#10; 2358#10; 2665#10; 7724#10; 3266#10; 5855#10; 169#10; 1359#10;
     2242#10; 3821#10; 6146#10; (-1000); (-1000); (-1000)].

(** src/rbfopt/rbfopt_test_functions.py:1519-1611, [schoen_6_2_int.z]. *)
Definition schoen_6_2_int_z : list (list Q) :=
   [ [669711#1000000; 81554#100000; 64612#100000; 377447#1000000; 111538#1000000; 40529#1000000];
     [632#1000000; 706804#1000000; 857031#1000000; 473778#1000000; 993569#1000000; 616184#1000000];
     [625617#1000000; 880221#1000000; 534547#1000000; 760235#1000000; 276998#1000000; 735438#1000000];
     [774577#1000000; 922914#1000000; 947791#1000000; 315328#1000000; 414841#1000000; 785803#1000000];
     [79768#1000000; 131498#1000000; 225123#1000000; 464621#1000000; 638041#1000000; 992795#1000000];
     [471038#1000000; 244503#1000000; 565776#1000000; 898397#1000000; 604639#1000000; 30623#100000];
     [642233#1000000; 482219#1000000; 34943#1000000; 934805#1000000; 972714#1000000; 153664#1000000];
     [550151#1000000; 310507#1000000; 42126#1000000; 230722#1000000; 444375#1000000; 117355#1000000];
     [789984#1000000; 488482#1000000; 65237#1000000; 84294#100000; 793454#1000000; 799489#1000000];
     [850183#1000000; 754551#1000000; 516033#1000000; 166362#1000000; 201966#1000000; 44234#1000000];
     [601#1000000; 896758#1000000; 304433#1000000; 149125#1000000; 178398#1000000; 871836#1000000];
     [56787#1000000; 932745#1000000; 218009#1000000; 778061#1000000; 131847#1000000; 356237#1000000];
     [210266#1000000; 221479#1000000; 14831#1000000; 200901#1000000; 656693#1000000; 891819#1000000];
     [528515#1000000; 178025#1000000; 188138#1000000; 411485#1000000; 217833#1000000; 907579#1000000];
     [195801#1000000; 663099#1000000; 477312#1000000; 39525#100000; 655791#1000000; 82057#100000];
     [933208#1000000; 789323#1000000; 35052#100000; 855434#1000000; 491082#1000000; 874993#1000000];
     [251047#1000000; 543513#1000000; 529644#1000000; 218495#1000000; 351637#1000000; 608904#1000000];
     [963286#1000000; 793004#1000000; 650148#1000000; 881362#1000000; 904832#1000000; 5397#1000000];
     [431744#1000000; 438965#1000000; 44544#1000000; 834968#1000000; 330614#1000000; 451282#1000000];
     [234845#1000000; 328576#1000000; 388284#1000000; 339183#1000000; 206086#1000000; 600034#1000000];
     [512783#1000000; 961787#1000000; 959109#1000000; 632098#1000000; 910614#1000000; 912025#1000000];
     [454168#1000000; 743189#1000000; 834284#1000000; 955817#1000000; 72172#1000000; 523068#1000000];
     [696968#1000000; 720236#1000000; 34106#100000; 5458#100000; 45599#1000000; 549192#1000000];
     [272955#1000000; 318845#1000000; 700767#1000000; 426325#1000000; 895755#1000000; 843128#1000000];
     [992189#1000000; 332899#1000000; 272784#1000000; 19284#1000000; 73711#1000000; 4348#10000];
     [154276#1000000; 639611#1000000; 924641#1000000; 587242#1000000; 358453#1000000; 548022#1000000];
     [21506#1000000; 450392#1000000; 51515#100000; 32232#1000000; 650223#1000000; 849384#1000000];
     [316499#1000000; 513234#1000000; 958219#1000000; 843587#1000000; 125408#1000000; 836643#1000000];
     [538587#1000000; 26175#100000; 732136#1000000; 30271#1000000; 893345#1000000; 270532#1000000];
     [987469#1000000; 70878#100000; 446487#1000000; 968784#1000000; 734448#1000000; 788229#1000000];
     [353358#1000000; 135036#1000000; 249018#1000000; 565029#1000000; 740519#1000000; 250807#1000000];
     [810372#1000000; 65651#100000; 472093#1000000; 225741#1000000; 420513#1000000; 202519#1000000];
     [848128#1000000; 551586#1000000; 51314#100000; 956164#1000000; 483389#1000000; 404478#1000000];
     [292239#1000000; 297077#1000000; 934202#1000000; 468329#1000000; 872274#1000000; 992632#1000000];
     [828869#1000000; 534749#1000000; 716451#1000000; 405855#1000000; 164485#1000000; 531068#1000000];
     [130616#1000000; 757677#1000000; 2845#10000; 4383#10000; 957643#1000000; 725899#1000000];
     [503542#1000000; 640368#1000000; 381914#1000000; 847206#1000000; 13466#100000; 762294#1000000];
     [653851#1000000; 646544#1000000; 436036#1000000; 944225#1000000; 310369#1000000; 392362#1000000];
     [539397#1000000; 27168#1000000; 697972#1000000; 209293#1000000; 99289#100000; 8113#1000000];
     [902045#1000000; 171034#1000000; 194924#1000000; 620057#1000000; 2203#1000000; 557433#1000000];
     [802612#1000000; 85835#1000000; 380626#1000000; 492568#1000000; 238166#1000000; 961837#1000000];
     [466993#1000000; 647847#1000000; 113397#1000000; 15357#1000000; 928904#1000000; 166425#1000000];
     [892021#1000000; 869756#1000000; 681364#1000000; 129555#1000000; 394682#1000000; 745036#1000000];
     [60675#1000000; 869904#1000000; 757236#1000000; 220765#1000000; 615988#1000000; 754288#1000000];
     [31815#1000000; 340961#1000000; 455958#1000000; 529616#1000000; 840036#1000000; 3652#10000];
     [834595#1000000; 603639#1000000; 74533#100000; 8508#100000; 184636#1000000; 238718#1000000];
     [575681#1000000; 250761#1000000; 874497#1000000; 870401#1000000; 854591#1000000; 968971#1000000];
     [3#10; 7#10; 4#10; 1#10; 258563#1000000; 932004#1000000];
     [2#10; 9#10; 7#10; 2#10; 375076#1000000; 154363#1000000];
     [4#10; 4#10; 6#10; 9#10; 579466#1000000; 524775#1000000] ].

(** src/rbfopt/rbfopt_test_functions.py:1519-1611, [schoen_6_2_int.f]. *)
Definition schoen_6_2_int_f : list Q :=
   [1096#10; 1324#10; 5582#10; 158; 62#10; 2054#10; 5939#10; 24#10; 3998#10; 3959#10; 2126#10; 9761#10;
     1044#10; 5521#10; 4363#10; 8371#10; 2837#10; 7797#10; 3921#10; 858#10; 8851#10; 4015#10; 3675#10;
     6944#10; 6916#10; 9331#10; 5907#10; 2462#10; 370; 543#10; 7194#10; 952#10; 276; 8291#10; 6136#10;
     2428#10; 4246#10; 3206#10; 6661#10; 4792#10; 420; 9566#10; 241; 211#10; 1698#10; 1781#10; 3944#10;
     (-1000); (-1000); (-1000)].

(** src/rbfopt/rbfopt_test_functions.py:1615-1758, [schoen_10_1_int.z]. *)
Definition schoen_10_1_int_z : list (list Q) :=
   [ [914871#1000000; 76523#100000; 139426#1000000; 617466#1000000; 823635#1000000; 794003#1000000;
      801171#1000000; 568811#1000000; 279434#1000000; 540422#1000000];
     [976983#1000000; 593277#1000000; 701115#1000000; 585262#1000000; 669106#1000000; 272906#1000000;
      177127#1000000; 143389#1000000; 561181#1000000; 18744#1000000];
     [385208#1000000; 984106#1000000; 390066#1000000; 90597#100000; 1696#10000; 191291#1000000;
      564157#1000000; 68991#100000; 857031#1000000; 71539#100000];
     [975998#1000000; 536904#1000000; 819333#1000000; 801793#1000000; 564454#1000000; 336124#1000000;
      65419#100000; 44197#1000000; 717416#1000000; 465807#1000000];
     [750519#1000000; 415284#1000000; 258927#1000000; 736115#1000000; 597744#1000000; 763716#1000000;
      747691#1000000; 969633#1000000; 188117#1000000; 964954#1000000];
     [412888#1000000; 671756#1000000; 380214#1000000; 558595#1000000; 76837#100000; 99832#100000;
      212183#1000000; 606757#1000000; 531315#1000000; 303569#1000000];
     [196682#1000000; 139879#1000000; 108608#1000000; 736975#1000000; 755971#1000000; 2139#100000;
      852398#1000000; 188596#1000000; 920133#1000000; 45012#1000000];
     [95627#100000; 729258#1000000; 397664#1000000; 13146#1000000; 519861#1000000; 300011#1000000;
      8396#1000000; 820346#1000000; 176841#1000000; 402298#1000000];
     [126432#1000000; 872346#1000000; 923581#1000000; 297492#1000000; 992744#1000000; 486525#1000000;
      915493#1000000; 58998#100000; 498242#1000000; 989945#1000000];
     [697409#1000000; 26641#1000000; 875467#1000000; 503039#1000000; 563285#1000000; 96769#1000000;
      933643#1000000; 884419#1000000; 585825#1000000; 395465#1000000];
     [494783#1000000; 8243#10000; 153326#1000000; 202651#1000000; 579815#1000000; 416954#1000000;
      707624#1000000; 497959#1000000; 568876#1000000; 812841#1000000];
     [126963#1000000; 757337#1000000; 648583#1000000; 787445#1000000; 822586#1000000; 401155#1000000;
      30135#100000; 562707#1000000; 744074#1000000; 88372#1000000];
     [293611#1000000; 835864#1000000; 925111#1000000; 760322#1000000; 729456#1000000; 9684#100000;
      651466#1000000; 975836#1000000; 691353#1000000; 38384#1000000];
     [99925#100000; 916829#1000000; 205699#1000000; 27241#1000000; 156956#1000000; 206598#1000000;
      175242#1000000; 811219#1000000; 660192#1000000; 119865#1000000];
     [387978#1000000; 66518#100000; 774376#1000000; 135223#1000000; 766238#1000000; 380668#1000000;
      58279#1000000; 727506#1000000; 991527#1000000; 345759#1000000];
     [299341#1000000; 66231#1000000; 680305#1000000; 39223#100000; 319985#1000000; 698292#1000000;
      100236#1000000; 394973#1000000; 96232#1000000; 362943#1000000];
     [281548#1000000; 860858#1000000; 64787#100000; 98165#100000; 110777#1000000; 836484#1000000;
      697387#1000000; 659942#1000000; 694425#1000000; 434991#1000000];
     [606706#1000000; 52287#1000000; 858208#1000000; 738885#1000000; 158495#1000000; 2367#1000000;
      933796#1000000; 112986#1000000; 647308#1000000; 421573#1000000];
     [776505#1000000; 101364#1000000; 610406#1000000; 275033#1000000; 548409#1000000; 998967#1000000;
      536743#1000000; 943903#1000000; 960993#1000000; 251672#1000000];
     [371347#1000000; 491122#1000000; 772374#1000000; 860206#1000000; 752131#1000000; 338591#1000000;
      826739#1000000; 312111#1000000; 768881#1000000; 862719#1000000];
     [866886#1000000; 35822#100000; 131205#1000000; 276334#1000000; 334111#1000000; 429525#1000000;
      752197#1000000; 167524#1000000; 437764#1000000; 162916#1000000];
     [584246#1000000; 511215#1000000; 659647#1000000; 34922#100000; 954428#1000000; 477982#1000000;
      386041#1000000; 813944#1000000; 75353#100000; 983276#1000000];
     [697327#1000000; 499835#1000000; 530487#1000000; 599958#1000000; 497257#1000000; 998852#1000000;
      106262#1000000; 186978#1000000; 887481#1000000; 749174#1000000];
     [41611#1000000; 278918#1000000; 999095#1000000; 825221#1000000; 21832#100000; 383711#1000000;
      77041#1000000; 642061#1000000; 668906#1000000; 758298#1000000];
     [72437#1000000; 592862#1000000; 40655#1000000; 44633#100000; 651659#1000000; 55738#1000000;
      631924#1000000; 890039#1000000; 192989#1000000; 741054#1000000];
     [533886#1000000; 135079#1000000; 787647#1000000; 593408#1000000; 749228#1000000; 749045#1000000;
      190386#1000000; 755508#1000000; 465321#1000000; 465156#1000000];
     [748843#1000000; 696419#1000000; 882124#1000000; 843895#1000000; 858057#1000000; 220107#1000000;
      35031#100000; 102947#1000000; 453576#1000000; 87594#100000];
     [560231#1000000; 580247#1000000; 381834#1000000; 807535#1000000; 184636#1000000; 615702#1000000;
      628408#1000000; 81783#1000000; 793384#1000000; 233639#1000000];
     [384827#1000000; 589138#1000000; 630013#1000000; 634506#1000000; 630712#1000000; 521293#1000000;
      494486#1000000; 6817#10000; 288512#1000000; 319808#1000000];
     [721978#1000000; 452289#1000000; 426726#1000000; 323106#1000000; 781584#1000000; 999325#1000000;
      4367#100000; 88456#100000; 520936#1000000; 430684#1000000];
     [810388#1000000; 624041#1000000; 811624#1000000; 105973#1000000; 199807#1000000; 440644#1000000;
      864152#1000000; 28228#100000; 397116#1000000; 499932#1000000];
     [973889#1000000; 677797#1000000; 80137#1000000; 549098#1000000; 625445#1000000; 577342#1000000;
      538642#1000000; 388039#1000000; 552273#1000000; 793807#1000000];
     [365176#1000000; 228017#1000000; 6235#10000; 8445#100000; 177343#1000000; 910108#1000000;
      632719#1000000; 521458#1000000; 894843#1000000; 707893#1000000];
     [502069#1000000; 622312#1000000; 958019#1000000; 744999#1000000; 515695#1000000; 407885#1000000;
      590739#1000000; 736542#1000000; 297555#1000000; 237955#1000000];
     [313835#1000000; 90014#1000000; 336274#1000000; 433171#1000000; 330864#1000000; 105751#1000000;
      160367#1000000; 651934#1000000; 20726#100000; 293577#1000000];
     [886072#1000000; 592935#1000000; 498116#1000000; 321835#1000000; 11216#1000000; 543911#1000000;
      506579#1000000; 216779#1000000; 406812#1000000; 261349#1000000];
     [789947#1000000; 881332#1000000; 696597#1000000; 742955#1000000; 252224#1000000; 718157#1000000;
      188217#1000000; 371208#1000000; 17864#100000; 34772#100000];
     [482759#1000000; 663618#1000000; 622706#1000000; 3617#100000; 278854#1000000; 88147#1000000;
      482808#1000000; 134824#1000000; 28828#1000000; 944537#1000000];
     [184705#1000000; 662346#1000000; 917194#1000000; 18649#100000; 918392#1000000; 955111#1000000;
      636015#1000000; 447595#1000000; 813716#1000000; 372839#1000000];
     [231741#1000000; 637199#1000000; 745257#1000000; 201568#1000000; 697485#1000000; 897022#1000000;
      239791#1000000; 495219#1000000; 153831#1000000; 387172#1000000];
     [198061#1000000; 194102#1000000; 550259#1000000; 751804#1000000; 503973#1000000; 34252#1000000;
      788267#1000000; 73176#100000; 118338#1000000; 57247#1000000];
     [6847#100000; 54518#100000; 668845#1000000; 714932#1000000; 688014#1000000; 203845#1000000;
      146138#1000000; 109039#1000000; 470214#1000000; 441797#1000000];
     [8518#100000; 142394#1000000; 938665#1000000; 71422#1000000; 946796#1000000; 697832#1000000;
      4724#10000; 161384#1000000; 325715#1000000; 12255#100000];
     [637672#1000000; 986961#1000000; 969438#1000000; 989508#1000000; 381318#1000000; 800871#1000000;
      12035#1000000; 326007#1000000; 459124#1000000; 645374#1000000];
     [14721#100000; 954608#1000000; 361146#1000000; 94699#1000000; 92327#1000000; 301664#1000000;
      478447#1000000; 8274#1000000; 680576#1000000; 4184#1000000];
     [768792#1000000; 812618#1000000; 915766#1000000; 2907#100000; 506944#1000000; 457816#1000000;
      839167#1000000; 24706#1000000; 990756#1000000; 88779#1000000];
     [872678#1000000; 601536#1000000; 948347#1000000; 621023#1000000; 415621#1000000; 28934#100000;
      291338#1000000; 190461#1000000; 664007#1000000; 583513#1000000];
     [6#10; 7#10; 0; 3555#10000; 2947#10000; 3#10; 5#10; 5#10; 759223#1000000; 508432#1000000];
     [7#10; 0; 4#10; 300586#1000000; 576927#1000000; 1#10; 2#10; 9#10; 614178#1000000; 92903#1000000];
     [7#10; 3#10; 7#10; 899419#1000000; 749499#1000000; 6#10; 6#10; 0; 973726#1000000; 168336#1000000] ].

(** src/rbfopt/rbfopt_test_functions.py:1615-1758, [schoen_10_1_int.f]. *)
Definition schoen_10_1_int_f : list Q :=
   [7991#10; 3968#10; 3703#10; 4002#10; 2397#10; 6788#10; 8689#10; 5644#10; 6816#10; 153; 7607#10;
     5629#10; 4349#10; 5792#10; 2606#10; 885#10; 6013#10; 7548#10; 8948#10; 6728#10; 6337#10; 9218#10;
     432#10; 2862#10; 9455#10; 716; 727#10; 6312#10; 6403#10; 4251#10; 8258#10; 5558#10; 1369#10;
     8057#10; 7865#10; 400; 8564#10; 548; 5108#10; 523#10; 1116#10; 6866#10; 8882#10; 3154#10; 3339#10;
     615#10; 7552#10; (-1000); (-1000); (-1000)].

(** src/rbfopt/rbfopt_test_functions.py:1762-1905, [schoen_10_2_int.z]. *)
Definition schoen_10_2_int_z : list (list Q) :=
   [ [131461#1000000; 965235#1000000; 46134#1000000; 983011#1000000; 719813#1000000; 827542#1000000;
      662422#1000000; 570546#1000000; 578707#1000000; 13264#1000000];
     [68454#1000000; 682785#1000000; 582736#1000000; 434517#1000000; 310613#1000000; 869876#1000000;
      993949#1000000; 629156#1000000; 590599#1000000; 356378#1000000];
     [632837#1000000; 961665#1000000; 15079#1000000; 378878#1000000; 805608#1000000; 685239#1000000;
      528658#1000000; 752934#1000000; 71779#100000; 374865#1000000];
     [286191#1000000; 912944#1000000; 400358#1000000; 902532#1000000; 324887#1000000; 850063#1000000;
      483503#1000000; 764147#1000000; 147726#1000000; 159851#1000000];
     [303483#1000000; 75479#100000; 90527#1000000; 653764#1000000; 164323#1000000; 402931#1000000;
      593477#1000000; 448444#1000000; 711483#1000000; 113869#1000000];
     [57398#1000000; 302029#1000000; 596351#1000000; 565466#1000000; 694204#1000000; 974864#1000000;
      323989#1000000; 298493#1000000; 859391#1000000; 238714#1000000];
     [139267#1000000; 214902#1000000; 608462#1000000; 297987#1000000; 49981#100000; 578553#1000000;
      548077#1000000; 208442#1000000; 46162#1000000; 246848#1000000];
     [68042#100000; 783181#1000000; 828103#1000000; 47581#100000; 680401#1000000; 188455#1000000;
      152#10000; 650103#1000000; 762389#1000000; 63985#1000000];
     [409243#1000000; 60074#100000; 302354#1000000; 588411#1000000; 436291#1000000; 29479#100000;
      701477#1000000; 994162#1000000; 433749#1000000; 53532#100000];
     [77949#1000000; 530126#1000000; 869737#1000000; 387811#1000000; 705317#1000000; 632911#1000000;
      442087#1000000; 82918#1000000; 441383#1000000; 591975#1000000];
     [622628#1000000; 54964#1000000; 20475#1000000; 145616#1000000; 163873#1000000; 321546#1000000;
      282867#1000000; 743494#1000000; 750568#1000000; 732386#1000000];
     [538574#1000000; 66932#1000000; 225204#1000000; 290045#1000000; 613242#1000000; 529365#1000000;
      384018#1000000; 946557#1000000; 974384#1000000; 425297#1000000];
     [108817#1000000; 850094#1000000; 886417#1000000; 161581#1000000; 82973#1000000; 506354#1000000;
      58965#100000; 638991#1000000; 45151#1000000; 688464#1000000];
     [917742#1000000; 365119#1000000; 484176#1000000; 173231#1000000; 210253#1000000; 303688#1000000;
      992141#1000000; 23109#1000000; 977178#1000000; 535146#1000000];
     [183469#1000000; 198085#1000000; 511596#1000000; 27561#100000; 7537#10000; 437328#1000000;
      986237#1000000; 28654#1000000; 767921#1000000; 99791#100000];
     [484908#1000000; 759122#1000000; 577318#1000000; 359934#1000000; 93573#100000; 617833#1000000;
      770173#1000000; 311175#1000000; 4831#1000000; 157457#1000000];
     [634077#1000000; 236972#1000000; 16427#1000000; 261753#1000000; 349712#1000000; 24587#100000;
      412238#1000000; 523557#1000000; 985327#1000000; 9406#100000];
     [477875#1000000; 803438#1000000; 496728#1000000; 84892#100000; 497386#1000000; 938203#1000000;
      279797#1000000; 287076#1000000; 395184#1000000; 980546#1000000];
     [450215#1000000; 193712#1000000; 975838#1000000; 103925#1000000; 7741#100000; 709573#1000000;
      253072#1000000; 311723#1000000; 885664#1000000; 204528#1000000];
     [557312#1000000; 815198#1000000; 97914#1000000; 539142#1000000; 826048#1000000; 13007#100000;
      49858#1000000; 223634#1000000; 76387#1000000; 831224#1000000];
     [927559#1000000; 324916#1000000; 563393#1000000; 209281#1000000; 344394#1000000; 953384#1000000;
      298679#1000000; 890637#1000000; 966615#1000000; 380006#1000000];
     [26403#1000000; 997573#1000000; 479163#1000000; 379686#1000000; 687928#1000000; 832002#1000000;
      214326#1000000; 348248#1000000; 73151#1000000; 62646#1000000];
     [726869#1000000; 911171#1000000; 96192#100000; 874884#1000000; 216867#1000000; 76966#1000000;
      77624#100000; 495777#1000000; 963492#1000000; 425246#1000000];
     [357483#1000000; 48633#100000; 759177#1000000; 748362#1000000; 889904#1000000; 350438#1000000;
      232983#1000000; 823613#1000000; 792656#1000000; 441264#1000000];
     [875826#1000000; 359459#1000000; 214808#1000000; 42585#100000; 493328#1000000; 456048#1000000;
      523145#1000000; 504154#1000000; 90128#1000000; 472437#1000000];
     [8134#10000; 808407#1000000; 427211#1000000; 902524#1000000; 210376#1000000; 490662#1000000;
      915939#1000000; 169439#1000000; 78865#1000000; 485371#1000000];
     [877334#1000000; 982207#1000000; 679085#1000000; 486335#1000000; 940715#1000000; 585964#1000000;
      289279#1000000; 694886#1000000; 172625#1000000; 201457#1000000];
     [141599#1000000; 476124#1000000; 762246#1000000; 67045#1000000; 411332#1000000; 813196#1000000;
      134138#1000000; 30239#100000; 856145#1000000; 349243#1000000];
     [346912#1000000; 82142#1000000; 787442#1000000; 857465#1000000; 371129#1000000; 44855#100000;
      967943#1000000; 77534#100000; 943681#1000000; 656127#1000000];
     [619267#1000000; 547196#1000000; 470422#1000000; 141566#1000000; 584198#1000000; 952226#1000000;
      196462#1000000; 629549#1000000; 685469#1000000; 824365#1000000];
     [14209#1000000; 789812#1000000; 836373#1000000; 186139#1000000; 49384#100000; 710697#1000000;
      910033#1000000; 368287#1000000; 865953#1000000; 140892#1000000];
     [482763#1000000; 72574#1000000; 2673#100000; 143687#1000000; 739505#1000000; 419649#1000000;
      13683#1000000; 662644#1000000; 785254#1000000; 234561#1000000];
     [821421#1000000; 8441#10000; 153937#1000000; 671762#1000000; 290469#1000000; 631347#1000000;
      591435#1000000; 498966#1000000; 43395#1000000; 176771#1000000];
     [404994#1000000; 496656#1000000; 951774#1000000; 497357#1000000; 715401#1000000; 23378#1000000;
      493045#1000000; 342766#1000000; 117055#1000000; 69859#100000];
     [985857#1000000; 831692#1000000; 423498#1000000; 215757#1000000; 34126#100000; 79076#100000;
      941186#1000000; 716883#1000000; 62641#1000000; 582012#1000000];
     [676905#1000000; 280897#1000000; 800638#1000000; 898913#1000000; 735995#1000000; 592412#1000000;
      433021#1000000; 432772#1000000; 874477#1000000; 112375#1000000];
     [377382#1000000; 118941#1000000; 529204#1000000; 419434#1000000; 673891#1000000; 74904#1000000;
      129868#1000000; 819585#1000000; 220536#1000000; 353223#1000000];
     [233415#1000000; 136703#1000000; 487256#1000000; 777498#1000000; 901915#1000000; 612402#1000000;
      778635#1000000; 436718#1000000; 48452#100000; 641969#1000000];
     [273297#1000000; 670196#1000000; 344525#1000000; 669751#1000000; 18023#100000; 530085#1000000;
      393284#1000000; 326043#1000000; 26084#100000; 36469#100000];
     [931213#1000000; 676123#1000000; 912481#1000000; 898258#1000000; 1887#1000000; 408306#1000000;
      917215#1000000; 496959#1000000; 287951#1000000; 562511#1000000];
     [47196#1000000; 780338#1000000; 895994#1000000; 88169#1000000; 552425#1000000; 13079#100000;
      308504#1000000; 232476#1000000; 187952#1000000; 105936#1000000];
     [343517#1000000; 356222#1000000; 416018#1000000; 450278#1000000; 487765#1000000; 4051#100000;
      592363#1000000; 771635#1000000; 577849#1000000; 315843#1000000];
     [527759#1000000; 529503#1000000; 210423#1000000; 756794#1000000; 89267#100000; 339374#1000000;
      445837#1000000; 363265#1000000; 432114#1000000; 942045#1000000];
     [560107#1000000; 110906#1000000; 115725#1000000; 761393#1000000; 969105#1000000; 921166#1000000;
      455014#1000000; 593512#1000000; 111887#1000000; 2173#10000];
     [463382#1000000; 635591#1000000; 329484#1000000; 573602#1000000; 492558#1000000; 474174#1000000;
      371906#1000000; 850465#1000000; 467637#1000000; 261373#1000000];
     [33051#1000000; 422543#1000000; 294155#1000000; 699026#1000000; 846231#1000000; 47967#1000000;
      686826#1000000; 480273#1000000; 463181#1000000; 345601#1000000];
     [285473#1000000; 723925#1000000; 202386#1000000; 671909#1000000; 685277#1000000; 993969#1000000;
      415329#1000000; 155218#1000000; 233826#1000000; 88752#1000000];
     [0; 6#10; 8#10; 677718#1000000; 961189#1000000; 2#10; 8#10; 8#10; 52497#100000; 815489#1000000];
     [5#10; 5#10; 1#10; 156163#1000000; 274566#1000000; 5#10; 8#10; 8#10; 656166#1000000; 964211#1000000];
     [1#10; 9#10; 0; 178217#1000000; 408438#1000000; 2#10; 1#10; 2#10; 51758#1000000; 906712#1000000] ].

(** src/rbfopt/rbfopt_test_functions.py:1762-1905, [schoen_10_2_int.f]. *)
Definition schoen_10_2_int_f : list Q :=
   [904#10; 8309#10; 527#10; 3752#10; 2897#10; 2441#10; 4702#10; 1117#10; 9689#10; 9034#10; 9185#10;
     8203#10; 4412#10; 6875#10; 8369#10; 11; 4545#10; 9293#10; 9526#10; 9372#10; 8705#10; 2117#10;
     3784#10; 3203#10; 7296#10; 4208#10; 2138#10; 7177#10; 2854#10; 5228#10; 7483#10; 371; 5012#10;
     5686#10; 1119#10; 6452#10; 4862#10; 157; 9685#10; 1376#10; 1272#10; 9434#10; 4372#10; 1997#10;
     4154#10; 966; 3623#10; (-1000); (-1000); (-1000)].

(** src/rbfopt/rbfopt_test_functions.py:1942-1974, [hartman3_cat.a]. *)
Definition hartman3_cat_a : list (list Q) :=
   [ [3; 1#10; 3; 1#10];
     [10; 10; 10; 10];
     [30; 35; 30; 35] ].

(** src/rbfopt/rbfopt_test_functions.py:1942-1974, [hartman3_cat.p]. *)
Definition hartman3_cat_p : list (list Q) :=
   [ [3689#10000; 4699#10000; 1091#10000; 3815#100000];
     [117#1000; 4387#10000; 8732#10000; 5743#10000];
     [2673#10000; 747#1000; 5547#10000; 8828#10000] ].

(** src/rbfopt/rbfopt_test_functions.py:1942-1974, [hartman3_cat.c]. *)
Definition hartman3_cat_c : list (list Q) :=
   [ [32#10; 25#10; 2#10; 7#10];
     [1; 12#10; 3; 32#10];
     [22#10; 12#10; 31#10; 17#10];
     [1#10; 21#10; 3#10; 37#10];
     [18#10; 4#10; 31#10; 24#10] ].

(** src/rbfopt/rbfopt_test_functions.py:1978-2017, [hartman6_cat.a]. *)
Definition hartman6_cat_a : list (list Q) :=
   [ [10; 5#100; 3; 17];
     [3; 10; 35#10; 8];
     [17; 17; 17#10; 5#100];
     [35#10; 1#10; 10; 10];
     [17#10; 8; 17; 1#10];
     [8; 14; 8; 14] ].

(** src/rbfopt/rbfopt_test_functions.py:1978-2017, [hartman6_cat.p]. *)
Definition hartman6_cat_p : list (list Q) :=
   [ [1312#10000; 2329#10000; 2348#10000; 4047#10000];
     [1696#10000; 4135#10000; 1451#10000; 8828#10000];
     [5569#10000; 8307#10000; 3522#10000; 8732#10000];
     [124#10000; 3736#10000; 2883#10000; 5743#10000];
     [8283#10000; 1004#10000; 3047#10000; 1091#10000];
     [5886#10000; 9991#10000; 665#1000; 381#10000] ].

(** src/rbfopt/rbfopt_test_functions.py:1978-2017, [hartman6_cat.c]. *)
Definition hartman6_cat_c : list (list Q) :=
   [ [1; 12#10; 3; 32#10];
     [32#10; 25#10; 2#10; 7#10];
     [22#10; 12#10; 31#10; 17#10];
     [1#10; 21#10; 3#10; 37#10];
     [18#10; 4#10; 31#10; 24#10] ].

(** src/rbfopt/rbfopt_test_functions.py:2060-2231, [schoen_10_1_cat.z]. *)
Definition schoen_10_1_cat_z : list (list Q) :=
   [ [914871#1000000; 76523#100000; 139426#1000000; 617466#1000000; 823635#1000000; 794003#1000000;
      801171#1000000; 568811#1000000; 279434#1000000; 540422#1000000];
     [976983#1000000; 593277#1000000; 701115#1000000; 585262#1000000; 669106#1000000; 272906#1000000;
      177127#1000000; 143389#1000000; 561181#1000000; 18744#1000000];
     [385208#1000000; 984106#1000000; 390066#1000000; 90597#100000; 1696#10000; 191291#1000000;
      564157#1000000; 68991#100000; 857031#1000000; 71539#100000];
     [975998#1000000; 536904#1000000; 819333#1000000; 801793#1000000; 564454#1000000; 336124#1000000;
      65419#100000; 44197#1000000; 717416#1000000; 465807#1000000];
     [750519#1000000; 415284#1000000; 258927#1000000; 736115#1000000; 597744#1000000; 763716#1000000;
      747691#1000000; 969633#1000000; 188117#1000000; 964954#1000000];
     [412888#1000000; 671756#1000000; 380214#1000000; 558595#1000000; 76837#100000; 99832#100000;
      212183#1000000; 606757#1000000; 531315#1000000; 303569#1000000];
     [196682#1000000; 139879#1000000; 108608#1000000; 736975#1000000; 755971#1000000; 2139#100000;
      852398#1000000; 188596#1000000; 920133#1000000; 45012#1000000];
     [95627#100000; 729258#1000000; 397664#1000000; 13146#1000000; 519861#1000000; 300011#1000000;
      8396#1000000; 820346#1000000; 176841#1000000; 402298#1000000];
     [126432#1000000; 872346#1000000; 923581#1000000; 297492#1000000; 992744#1000000; 486525#1000000;
      915493#1000000; 58998#100000; 498242#1000000; 989945#1000000];
     [697409#1000000; 26641#1000000; 875467#1000000; 503039#1000000; 563285#1000000; 96769#1000000;
      933643#1000000; 884419#1000000; 585825#1000000; 395465#1000000];
     [494783#1000000; 8243#10000; 153326#1000000; 202651#1000000; 579815#1000000; 416954#1000000;
      707624#1000000; 497959#1000000; 568876#1000000; 812841#1000000];
     [126963#1000000; 757337#1000000; 648583#1000000; 787445#1000000; 822586#1000000; 401155#1000000;
      30135#100000; 562707#1000000; 744074#1000000; 88372#1000000];
     [293611#1000000; 835864#1000000; 925111#1000000; 760322#1000000; 729456#1000000; 9684#100000;
      651466#1000000; 975836#1000000; 691353#1000000; 38384#1000000];
     [99925#100000; 916829#1000000; 205699#1000000; 27241#1000000; 156956#1000000; 206598#1000000;
      175242#1000000; 811219#1000000; 660192#1000000; 119865#1000000];
     [387978#1000000; 66518#100000; 774376#1000000; 135223#1000000; 766238#1000000; 380668#1000000;
      58279#1000000; 727506#1000000; 991527#1000000; 345759#1000000];
     [299341#1000000; 66231#1000000; 680305#1000000; 39223#100000; 319985#1000000; 698292#1000000;
      100236#1000000; 394973#1000000; 96232#1000000; 362943#1000000];
     [281548#1000000; 860858#1000000; 64787#100000; 98165#100000; 110777#1000000; 836484#1000000;
      697387#1000000; 659942#1000000; 694425#1000000; 434991#1000000];
     [606706#1000000; 52287#1000000; 858208#1000000; 738885#1000000; 158495#1000000; 2367#1000000;
      933796#1000000; 112986#1000000; 647308#1000000; 421573#1000000];
     [776505#1000000; 101364#1000000; 610406#1000000; 275033#1000000; 548409#1000000; 998967#1000000;
      536743#1000000; 943903#1000000; 960993#1000000; 251672#1000000];
     [371347#1000000; 491122#1000000; 772374#1000000; 860206#1000000; 752131#1000000; 338591#1000000;
      826739#1000000; 312111#1000000; 768881#1000000; 862719#1000000];
     [866886#1000000; 35822#100000; 131205#1000000; 276334#1000000; 334111#1000000; 429525#1000000;
      752197#1000000; 167524#1000000; 437764#1000000; 162916#1000000];
     [584246#1000000; 511215#1000000; 659647#1000000; 34922#100000; 954428#1000000; 477982#1000000;
      386041#1000000; 813944#1000000; 75353#100000; 983276#1000000];
     [697327#1000000; 499835#1000000; 530487#1000000; 599958#1000000; 497257#1000000; 998852#1000000;
      106262#1000000; 186978#1000000; 887481#1000000; 749174#1000000];
     [41611#1000000; 278918#1000000; 999095#1000000; 825221#1000000; 21832#100000; 383711#1000000;
      77041#1000000; 642061#1000000; 668906#1000000; 758298#1000000];
     [72437#1000000; 592862#1000000; 40655#1000000; 44633#100000; 651659#1000000; 55738#1000000;
      631924#1000000; 890039#1000000; 192989#1000000; 741054#1000000];
     [533886#1000000; 135079#1000000; 787647#1000000; 593408#1000000; 749228#1000000; 749045#1000000;
      190386#1000000; 755508#1000000; 465321#1000000; 465156#1000000];
     [748843#1000000; 696419#1000000; 882124#1000000; 843895#1000000; 858057#1000000; 220107#1000000;
      35031#100000; 102947#1000000; 453576#1000000; 87594#100000];
     [560231#1000000; 580247#1000000; 381834#1000000; 807535#1000000; 184636#1000000; 615702#1000000;
      628408#1000000; 81783#1000000; 793384#1000000; 233639#1000000];
     [384827#1000000; 589138#1000000; 630013#1000000; 634506#1000000; 630712#1000000; 521293#1000000;
      494486#1000000; 6817#10000; 288512#1000000; 319808#1000000];
     [721978#1000000; 452289#1000000; 426726#1000000; 323106#1000000; 781584#1000000; 999325#1000000;
      4367#100000; 88456#100000; 520936#1000000; 430684#1000000];
     [810388#1000000; 624041#1000000; 811624#1000000; 105973#1000000; 199807#1000000; 440644#1000000;
      864152#1000000; 28228#100000; 397116#1000000; 499932#1000000];
     [973889#1000000; 677797#1000000; 80137#1000000; 549098#1000000; 625445#1000000; 577342#1000000;
      538642#1000000; 388039#1000000; 552273#1000000; 793807#1000000];
     [365176#1000000; 228017#1000000; 6235#10000; 8445#100000; 177343#1000000; 910108#1000000;
      632719#1000000; 521458#1000000; 894843#1000000; 707893#1000000];
     [502069#1000000; 622312#1000000; 958019#1000000; 744999#1000000; 515695#1000000; 407885#1000000;
      590739#1000000; 736542#1000000; 297555#1000000; 237955#1000000];
     [313835#1000000; 90014#1000000; 336274#1000000; 433171#1000000; 330864#1000000; 105751#1000000;
      160367#1000000; 651934#1000000; 20726#100000; 293577#1000000];
     [886072#1000000; 592935#1000000; 498116#1000000; 321835#1000000; 11216#1000000; 543911#1000000;
      506579#1000000; 216779#1000000; 406812#1000000; 261349#1000000];
     [789947#1000000; 881332#1000000; 696597#1000000; 742955#1000000; 252224#1000000; 718157#1000000;
      188217#1000000; 371208#1000000; 17864#100000; 34772#100000];
     [482759#1000000; 663618#1000000; 622706#1000000; 3617#100000; 278854#1000000; 88147#1000000;
      482808#1000000; 134824#1000000; 28828#1000000; 944537#1000000];
     [184705#1000000; 662346#1000000; 917194#1000000; 18649#100000; 918392#1000000; 955111#1000000;
      636015#1000000; 447595#1000000; 813716#1000000; 372839#1000000];
     [231741#1000000; 637199#1000000; 745257#1000000; 201568#1000000; 697485#1000000; 897022#1000000;
      239791#1000000; 495219#1000000; 153831#1000000; 387172#1000000];
     [198061#1000000; 194102#1000000; 550259#1000000; 751804#1000000; 503973#1000000; 34252#1000000;
      788267#1000000; 73176#100000; 118338#1000000; 57247#1000000];
     [6847#100000; 54518#100000; 668845#1000000; 714932#1000000; 688014#1000000; 203845#1000000;
      146138#1000000; 109039#1000000; 470214#1000000; 441797#1000000];
     [8518#100000; 142394#1000000; 938665#1000000; 71422#1000000; 946796#1000000; 697832#1000000;
      4724#10000; 161384#1000000; 325715#1000000; 12255#100000];
     [637672#1000000; 986961#1000000; 969438#1000000; 989508#1000000; 381318#1000000; 800871#1000000;
      12035#1000000; 326007#1000000; 459124#1000000; 645374#1000000];
     [14721#100000; 954608#1000000; 361146#1000000; 94699#1000000; 92327#1000000; 301664#1000000;
      478447#1000000; 8274#1000000; 680576#1000000; 4184#1000000];
     [768792#1000000; 812618#1000000; 915766#1000000; 2907#100000; 506944#1000000; 457816#1000000;
      839167#1000000; 24706#1000000; 990756#1000000; 88779#1000000];
     [872678#1000000; 601536#1000000; 948347#1000000; 621023#1000000; 415621#1000000; 28934#100000;
      291338#1000000; 190461#1000000; 664007#1000000; 583513#1000000];
     [641216#1000000; 700152#1000000; 80576#1000000; 3555#10000; 2947#10000; 338614#1000000;
      563964#1000000; 528079#1000000; 759223#1000000; 508432#1000000];
     [738489#1000000; 77376#1000000; 429485#1000000; 300586#1000000; 576927#1000000; 185931#1000000;
      231659#1000000; 954833#1000000; 614178#1000000; 92903#1000000];
     [729321#1000000; 318607#1000000; 768657#1000000; 899419#1000000; 749499#1000000; 623403#1000000;
      671793#1000000; 52835#1000000; 973726#1000000; 168336#1000000] ].

(** src/rbfopt/rbfopt_test_functions.py:2060-2231, [schoen_10_1_cat.f]. *)
Definition schoen_10_1_cat_f : list Q :=
   [(-1000); (-1000); (-1000); 7991#10; 3968#10; 3703#10; 4002#10; 2397#10; 6788#10; 8689#10; 5644#10;
     6816#10; 153; 7607#10; 5629#10; 4349#10; 5792#10; 2606#10; 885#10; 6013#10; 7548#10; 8948#10;
     6728#10; 6337#10; 9218#10; 432#10; 2862#10; 9455#10; 716; 727#10; 6312#10; 6403#10; 4251#10;
     8258#10; 5558#10; 1369#10; 8057#10; 7865#10; 400; 8564#10; 548; 5108#10; 523#10; 1116#10; 6866#10;
     8882#10; 3154#10; 3339#10; 615#10; 7552#10].

(** src/rbfopt/rbfopt_test_functions.py:2236-2407, [schoen_10_2_cat.z]. *)
Definition schoen_10_2_cat_z : list (list Q) :=
   [ [131461#1000000; 965235#1000000; 46134#1000000; 983011#1000000; 719813#1000000; 827542#1000000;
      662422#1000000; 570546#1000000; 578707#1000000; 13264#1000000];
     [68454#1000000; 682785#1000000; 582736#1000000; 434517#1000000; 310613#1000000; 869876#1000000;
      993949#1000000; 629156#1000000; 590599#1000000; 356378#1000000];
     [632837#1000000; 961665#1000000; 15079#1000000; 378878#1000000; 805608#1000000; 685239#1000000;
      528658#1000000; 752934#1000000; 71779#100000; 374865#1000000];
     [286191#1000000; 912944#1000000; 400358#1000000; 902532#1000000; 324887#1000000; 850063#1000000;
      483503#1000000; 764147#1000000; 147726#1000000; 159851#1000000];
     [303483#1000000; 75479#100000; 90527#1000000; 653764#1000000; 164323#1000000; 402931#1000000;
      593477#1000000; 448444#1000000; 711483#1000000; 113869#1000000];
     [57398#1000000; 302029#1000000; 596351#1000000; 565466#1000000; 694204#1000000; 974864#1000000;
      323989#1000000; 298493#1000000; 859391#1000000; 238714#1000000];
     [139267#1000000; 214902#1000000; 608462#1000000; 297987#1000000; 49981#100000; 578553#1000000;
      548077#1000000; 208442#1000000; 46162#1000000; 246848#1000000];
     [68042#100000; 783181#1000000; 828103#1000000; 47581#100000; 680401#1000000; 188455#1000000;
      152#10000; 650103#1000000; 762389#1000000; 63985#1000000];
     [409243#1000000; 60074#100000; 302354#1000000; 588411#1000000; 436291#1000000; 29479#100000;
      701477#1000000; 994162#1000000; 433749#1000000; 53532#100000];
     [77949#1000000; 530126#1000000; 869737#1000000; 387811#1000000; 705317#1000000; 632911#1000000;
      442087#1000000; 82918#1000000; 441383#1000000; 591975#1000000];
     [622628#1000000; 54964#1000000; 20475#1000000; 145616#1000000; 163873#1000000; 321546#1000000;
      282867#1000000; 743494#1000000; 750568#1000000; 732386#1000000];
     [538574#1000000; 66932#1000000; 225204#1000000; 290045#1000000; 613242#1000000; 529365#1000000;
      384018#1000000; 946557#1000000; 974384#1000000; 425297#1000000];
     [108817#1000000; 850094#1000000; 886417#1000000; 161581#1000000; 82973#1000000; 506354#1000000;
      58965#100000; 638991#1000000; 45151#1000000; 688464#1000000];
     [917742#1000000; 365119#1000000; 484176#1000000; 173231#1000000; 210253#1000000; 303688#1000000;
      992141#1000000; 23109#1000000; 977178#1000000; 535146#1000000];
     [183469#1000000; 198085#1000000; 511596#1000000; 27561#100000; 7537#10000; 437328#1000000;
      986237#1000000; 28654#1000000; 767921#1000000; 99791#100000];
     [484908#1000000; 759122#1000000; 577318#1000000; 359934#1000000; 93573#100000; 617833#1000000;
      770173#1000000; 311175#1000000; 4831#1000000; 157457#1000000];
     [634077#1000000; 236972#1000000; 16427#1000000; 261753#1000000; 349712#1000000; 24587#100000;
      412238#1000000; 523557#1000000; 985327#1000000; 9406#100000];
     [477875#1000000; 803438#1000000; 496728#1000000; 84892#100000; 497386#1000000; 938203#1000000;
      279797#1000000; 287076#1000000; 395184#1000000; 980546#1000000];
     [450215#1000000; 193712#1000000; 975838#1000000; 103925#1000000; 7741#100000; 709573#1000000;
      253072#1000000; 311723#1000000; 885664#1000000; 204528#1000000];
     [557312#1000000; 815198#1000000; 97914#1000000; 539142#1000000; 826048#1000000; 13007#100000;
      49858#1000000; 223634#1000000; 76387#1000000; 831224#1000000];
     [927559#1000000; 324916#1000000; 563393#1000000; 209281#1000000; 344394#1000000; 953384#1000000;
      298679#1000000; 890637#1000000; 966615#1000000; 380006#1000000];
     [26403#1000000; 997573#1000000; 479163#1000000; 379686#1000000; 687928#1000000; 832002#1000000;
      214326#1000000; 348248#1000000; 73151#1000000; 62646#1000000];
     [726869#1000000; 911171#1000000; 96192#100000; 874884#1000000; 216867#1000000; 76966#1000000;
      77624#100000; 495777#1000000; 963492#1000000; 425246#1000000];
     [357483#1000000; 48633#100000; 759177#1000000; 748362#1000000; 889904#1000000; 350438#1000000;
      232983#1000000; 823613#1000000; 792656#1000000; 441264#1000000];
     [875826#1000000; 359459#1000000; 214808#1000000; 42585#100000; 493328#1000000; 456048#1000000;
      523145#1000000; 504154#1000000; 90128#1000000; 472437#1000000];
     [8134#10000; 808407#1000000; 427211#1000000; 902524#1000000; 210376#1000000; 490662#1000000;
      915939#1000000; 169439#1000000; 78865#1000000; 485371#1000000];
     [877334#1000000; 982207#1000000; 679085#1000000; 486335#1000000; 940715#1000000; 585964#1000000;
      289279#1000000; 694886#1000000; 172625#1000000; 201457#1000000];
     [141599#1000000; 476124#1000000; 762246#1000000; 67045#1000000; 411332#1000000; 813196#1000000;
      134138#1000000; 30239#100000; 856145#1000000; 349243#1000000];
     [346912#1000000; 82142#1000000; 787442#1000000; 857465#1000000; 371129#1000000; 44855#100000;
      967943#1000000; 77534#100000; 943681#1000000; 656127#1000000];
     [619267#1000000; 547196#1000000; 470422#1000000; 141566#1000000; 584198#1000000; 952226#1000000;
      196462#1000000; 629549#1000000; 685469#1000000; 824365#1000000];
     [14209#1000000; 789812#1000000; 836373#1000000; 186139#1000000; 49384#100000; 710697#1000000;
      910033#1000000; 368287#1000000; 865953#1000000; 140892#1000000];
     [482763#1000000; 72574#1000000; 2673#100000; 143687#1000000; 739505#1000000; 419649#1000000;
      13683#1000000; 662644#1000000; 785254#1000000; 234561#1000000];
     [821421#1000000; 8441#10000; 153937#1000000; 671762#1000000; 290469#1000000; 631347#1000000;
      591435#1000000; 498966#1000000; 43395#1000000; 176771#1000000];
     [404994#1000000; 496656#1000000; 951774#1000000; 497357#1000000; 715401#1000000; 23378#1000000;
      493045#1000000; 342766#1000000; 117055#1000000; 69859#100000];
     [985857#1000000; 831692#1000000; 423498#1000000; 215757#1000000; 34126#100000; 79076#100000;
      941186#1000000; 716883#1000000; 62641#1000000; 582012#1000000];
     [676905#1000000; 280897#1000000; 800638#1000000; 898913#1000000; 735995#1000000; 592412#1000000;
      433021#1000000; 432772#1000000; 874477#1000000; 112375#1000000];
     [377382#1000000; 118941#1000000; 529204#1000000; 419434#1000000; 673891#1000000; 74904#1000000;
      129868#1000000; 819585#1000000; 220536#1000000; 353223#1000000];
     [233415#1000000; 136703#1000000; 487256#1000000; 777498#1000000; 901915#1000000; 612402#1000000;
      778635#1000000; 436718#1000000; 48452#100000; 641969#1000000];
     [273297#1000000; 670196#1000000; 344525#1000000; 669751#1000000; 18023#100000; 530085#1000000;
      393284#1000000; 326043#1000000; 26084#100000; 36469#100000];
     [931213#1000000; 676123#1000000; 912481#1000000; 898258#1000000; 1887#1000000; 408306#1000000;
      917215#1000000; 496959#1000000; 287951#1000000; 562511#1000000];
     [47196#1000000; 780338#1000000; 895994#1000000; 88169#1000000; 552425#1000000; 13079#100000;
      308504#1000000; 232476#1000000; 187952#1000000; 105936#1000000];
     [343517#1000000; 356222#1000000; 416018#1000000; 450278#1000000; 487765#1000000; 4051#100000;
      592363#1000000; 771635#1000000; 577849#1000000; 315843#1000000];
     [527759#1000000; 529503#1000000; 210423#1000000; 756794#1000000; 89267#100000; 339374#1000000;
      445837#1000000; 363265#1000000; 432114#1000000; 942045#1000000];
     [560107#1000000; 110906#1000000; 115725#1000000; 761393#1000000; 969105#1000000; 921166#1000000;
      455014#1000000; 593512#1000000; 111887#1000000; 2173#10000];
     [463382#1000000; 635591#1000000; 329484#1000000; 573602#1000000; 492558#1000000; 474174#1000000;
      371906#1000000; 850465#1000000; 467637#1000000; 261373#1000000];
     [33051#1000000; 422543#1000000; 294155#1000000; 699026#1000000; 846231#1000000; 47967#1000000;
      686826#1000000; 480273#1000000; 463181#1000000; 345601#1000000];
     [285473#1000000; 723925#1000000; 202386#1000000; 671909#1000000; 685277#1000000; 993969#1000000;
      415329#1000000; 155218#1000000; 233826#1000000; 88752#1000000];
     [29705#1000000; 651519#1000000; 813239#1000000; 677718#1000000; 961189#1000000; 285385#1000000;
      824635#1000000; 83767#100000; 52497#100000; 815489#1000000];
     [519627#1000000; 508274#1000000; 141067#1000000; 156163#1000000; 274566#1000000; 536322#1000000;
      834749#1000000; 852042#1000000; 656166#1000000; 964211#1000000];
     [119675#1000000; 971352#1000000; 52983#1000000; 178217#1000000; 408438#1000000; 215091#1000000;
      102098#1000000; 256312#1000000; 51758#1000000; 906712#1000000] ].

(** src/rbfopt/rbfopt_test_functions.py:2236-2407, [schoen_10_2_cat.f]. *)
Definition schoen_10_2_cat_f : list Q :=
   [(-1000); (-1000); (-1000); 904#10; 8309#10; 527#10; 3752#10; 2897#10; 2441#10; 4702#10; 1117#10;
     9689#10; 9034#10; 9185#10; 8203#10; 4412#10; 6875#10; 8369#10; 11; 4545#10; 9293#10; 9526#10;
     9372#10; 8705#10; 2117#10; 3784#10; 3203#10; 7296#10; 4208#10; 2138#10; 7177#10; 2854#10; 5228#10;
     7483#10; 371; 5012#10; 5686#10; 1119#10; 6452#10; 4862#10; 157; 9685#10; 1376#10; 1272#10; 9434#10;
     4372#10; 1997#10; 4154#10; 966; 3623#10].

(** src/rbfopt/rbfopt_test_functions.py:2524-2556, [st_miqp1_cat.c]. *)
Definition st_miqp1_cat_c : list (list Q) :=
   [ [20; 12; 11; 7; 4; 40];
     [8; 23; 12; 10; 10; 35];
     [12; 25; 30; 4; 22; 60];
     [18; 3; 15; 33; 25; 45];
     [27; 11; 9; 20; 13; 32];
     [9; 31; 25; 9; 27; 42];
     [14; 23; 18; 12; 33; 37] ].
