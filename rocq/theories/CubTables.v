(** Tables of package/inference/integrate/_cub2d_auto.py.

    The literals have 17 digits; [sci m e] is the literal with digits m (the
    point after the first) and exponent e, in units of 1e-33.  The rounding of
    the literals to doubles (and back, in 17 digits) is not modelled. *)

From Coq Require Import List ZArith String.
Import ListNotations.
Open Scope Z_scope.

Definition sci (m e : Z) : Z := m * 10 ^ (e + 17).

(** _cub2d_auto.py:20-24 *)
Definition e2r2_3_4a_absc : list (Z * Z) :=
  [(sci 10000000000000000 0, 0);
   (sci (-10000000000000000) 0, 0);
   (0, sci 10000000000000000 0);
   (0, sci (-10000000000000000) 0)].

(** _cub2d_auto.py:26-28 *)
Definition e2r2_3_4a_wts : list Z :=
  [sci 78539816339744828 (-1);
   sci 78539816339744828 (-1);
   sci 78539816339744828 (-1);
   sci 78539816339744828 (-1)].

(** _cub2d_auto.py:37-58 *)
Definition e2r2_9_21_absc : list (Z * Z) :=
  [(0, 0);
   (sci 15381890013208515 0, sci 15381890013208515 0);
   (sci (-15381890013208515) 0, sci 15381890013208515 0);
   (sci 15381890013208515 0, sci (-15381890013208515) 0);
   (sci (-15381890013208515) 0, sci (-15381890013208515) 0);
   (sci 43091398228826899 (-1), sci 10403183802565386 0);
   (sci (-43091398228826899) (-1), sci 10403183802565386 0);
   (sci 43091398228826899 (-1), sci (-10403183802565386) 0);
   (sci (-43091398228826899) (-1), sci (-10403183802565386) 0);
   (sci 10403183802565386 0, sci 43091398228826899 (-1));
   (sci (-10403183802565386) 0, sci 43091398228826899 (-1));
   (sci 10403183802565386 0, sci (-43091398228826899) (-1));
   (sci (-10403183802565386) 0, sci (-43091398228826899) (-1));
   (sci 54093734825794371 (-1), sci 21069972930282899 0);
   (sci (-54093734825794371) (-1), sci 21069972930282899 0);
   (sci 54093734825794371 (-1), sci (-21069972930282899) 0);
   (sci (-54093734825794371) (-1), sci (-21069972930282899) 0);
   (sci 21069972930282899 0, sci 54093734825794371 (-1));
   (sci (-21069972930282899) 0, sci 54093734825794371 (-1));
   (sci 21069972930282899 0, sci (-54093734825794371) (-1));
   (sci (-21069972930282899) 0, sci (-54093734825794371) (-1))].

(** _cub2d_auto.py:60-71 *)
Definition e2r2_9_21_wts : list Z :=
  [sci 10471975511965976 0;
   sci 12238016879947463 (-2);
   sci 12238016879947463 (-2);
   sci 12238016879947463 (-2);
   sci 12238016879947463 (-2);
   sci 24426215416421332 (-1);
   sci 24426215416421332 (-1);
   sci 24426215416421332 (-1);
   sci 24426215416421332 (-1);
   sci 24426215416421332 (-1);
   sci 24426215416421332 (-1);
   sci 24426215416421332 (-1);
   sci 24426215416421332 (-1);
   sci 11418225194962370 (-2);
   sci 11418225194962370 (-2);
   sci 11418225194962370 (-2);
   sci 11418225194962370 (-2);
   sci 11418225194962370 (-2);
   sci 11418225194962370 (-2);
   sci 11418225194962370 (-2);
   sci 11418225194962370 (-2)].

(** _cub2d_auto.py:80-108 *)
Definition e2r2_11_28a_absc : list (Z * Z) :=
  [(sci 27578163962570077 0, 0);
   (sci (-27578163962570077) 0, 0);
   (0, sci 27578163962570077 0);
   (0, sci (-27578163962570077) 0);
   (sci 17320508075688772 0, 0);
   (sci (-17320508075688772) 0, 0);
   (0, sci 17320508075688772 0);
   (0, sci (-17320508075688772) 0);
   (sci 62805153015975579 (-1), 0);
   (sci (-62805153015975579) (-1), 0);
   (0, sci 62805153015975579 (-1));
   (0, sci (-62805153015975579) (-1));
   (sci 12247448713915889 0, sci 21213203435596424 0);
   (sci (-12247448713915889) 0, sci 21213203435596424 0);
   (sci 12247448713915889 0, sci (-21213203435596424) 0);
   (sci (-12247448713915889) 0, sci (-21213203435596424) 0);
   (sci 21213203435596424 0, sci 12247448713915889 0);
   (sci (-21213203435596424) 0, sci 12247448713915889 0);
   (sci 21213203435596424 0, sci (-12247448713915889) 0);
   (sci (-21213203435596424) 0, sci (-12247448713915889) 0);
   (sci 70710678118654757 (-1), sci 12247448713915889 0);
   (sci (-70710678118654757) (-1), sci 12247448713915889 0);
   (sci 70710678118654757 (-1), sci (-12247448713915889) 0);
   (sci (-70710678118654757) (-1), sci (-12247448713915889) 0);
   (sci 12247448713915889 0, sci 70710678118654757 (-1));
   (sci (-12247448713915889) 0, sci 70710678118654757 (-1));
   (sci 12247448713915889 0, sci (-70710678118654757) (-1));
   (sci (-12247448713915889) 0, sci (-70710678118654757) (-1))].

(** _cub2d_auto.py:110-124 *)
Definition e2r2_11_28a_wts : list Z :=
  [sci 81766458176754176 (-4);
   sci 81766458176754176 (-4);
   sci 81766458176754176 (-4);
   sci 81766458176754176 (-4);
   sci 43633231299858237 (-2);
   sci 43633231299858237 (-2);
   sci 43633231299858237 (-2);
   sci 43633231299858237 (-2);
   sci 53732552144981738 (-1);
   sci 53732552144981738 (-1);
   sci 53732552144981738 (-1);
   sci 53732552144981738 (-1);
   sci 36361026083215199 (-3);
   sci 36361026083215199 (-3);
   sci 36361026083215199 (-3);
   sci 36361026083215199 (-3);
   sci 36361026083215199 (-3);
   sci 36361026083215199 (-3);
   sci 36361026083215199 (-3);
   sci 36361026083215199 (-3);
   sci 98174770424681035 (-2);
   sci 98174770424681035 (-2);
   sci 98174770424681035 (-2);
   sci 98174770424681035 (-2);
   sci 98174770424681035 (-2);
   sci 98174770424681035 (-2);
   sci 98174770424681035 (-2);
   sci 98174770424681035 (-2)].

(** _cub2d_auto.py:133-145 *)
Definition e2r2_7_12_absc : list (Z * Z) :=
  [(sci 17320508075688772 0, 0);
   (sci (-17320508075688772) 0, 0);
   (0, sci 17320508075688772 0);
   (0, sci (-17320508075688772) 0);
   (sci 53523313465963485 (-1), sci 53523313465963485 (-1));
   (sci (-53523313465963485) (-1), sci 53523313465963485 (-1));
   (sci 53523313465963485 (-1), sci (-53523313465963485) (-1));
   (sci (-53523313465963485) (-1), sci (-53523313465963485) (-1));
   (sci 14012585384440734 0, sci 14012585384440734 0);
   (sci (-14012585384440734) 0, sci 14012585384440734 0);
   (sci 14012585384440734 0, sci (-14012585384440734) 0);
   (sci (-14012585384440734) 0, sci (-14012585384440734) 0)].

(** _cub2d_auto.py:147-153 *)
Definition e2r2_7_12_wts : list Z :=
  [sci 87266462599716474 (-2);
   sci 87266462599716474 (-2);
   sci 87266462599716474 (-2);
   sci 87266462599716474 (-2);
   sci 66127983844512039 (-1);
   sci 66127983844512039 (-1);
   sci 66127983844512039 (-1);
   sci 66127983844512039 (-1);
   sci 36851862352611411 (-2);
   sci 36851862352611411 (-2);
   sci 36851862352611411 (-2);
   sci 36851862352611411 (-2)].

(** _cub2d_auto.py:162-166 *)
Definition e2_r2_3_4b_absc : list (Z * Z) :=
  [(sci 70710678118654757 (-1), sci 70710678118654757 (-1));
   (sci (-70710678118654757) (-1), sci 70710678118654757 (-1));
   (sci 70710678118654757 (-1), sci (-70710678118654757) (-1));
   (sci (-70710678118654757) (-1), sci (-70710678118654757) (-1))].

(** _cub2d_auto.py:168-170 *)
Definition e2_r2_3_4b_wts : list Z :=
  [sci 78539816339744828 (-1);
   sci 78539816339744828 (-1);
   sci 78539816339744828 (-1);
   sci 78539816339744828 (-1)].

(** _cub2d_auto.py:179-215 *)
Definition e2r2_13_36_absc : list (Z * Z) :=
  [(sci 23589322619806810 0, 0);
   (sci (-23589322619806810) 0, 0);
   (0, sci 23589322619806810 0);
   (0, sci (-23589322619806810) 0);
   (sci 13764866796963506 0, 0);
   (sci (-13764866796963506) 0, 0);
   (0, sci 13764866796963506 0);
   (0, sci (-13764866796963506) 0);
   (sci 54608441525854035 (-1), 0);
   (sci (-54608441525854035) (-1), 0);
   (0, sci 54608441525854035 (-1));
   (0, sci (-54608441525854035) (-1));
   (sci 19855313399178849 0, sci 19855313399178849 0);
   (sci (-19855313399178849) 0, sci 19855313399178849 0);
   (sci 19855313399178849 0, sci (-19855313399178849) 0);
   (sci (-19855313399178849) 0, sci (-19855313399178849) 0);
   (sci 84624998844801991 (-1), sci 84624998844801991 (-1));
   (sci (-84624998844801991) (-1), sci 84624998844801991 (-1));
   (sci 84624998844801991 (-1), sci (-84624998844801991) (-1));
   (sci (-84624998844801991) (-1), sci (-84624998844801991) (-1));
   (sci 99625342617276325 (-1), sci 30304360653685789 0);
   (sci (-99625342617276325) (-1), sci 30304360653685789 0);
   (sci 99625342617276325 (-1), sci (-30304360653685789) 0);
   (sci (-99625342617276325) (-1), sci (-30304360653685789) 0);
   (sci 30304360653685789 0, sci 99625342617276325 (-1));
   (sci (-30304360653685789) 0, sci 99625342617276325 (-1));
   (sci 30304360653685789 0, sci (-99625342617276325) (-1));
   (sci (-30304360653685789) 0, sci (-99625342617276325) (-1));
   (sci 93182402277619980 (-1), sci 17792467389053190 0);
   (sci (-93182402277619980) (-1), sci 17792467389053190 0);
   (sci 93182402277619980 (-1), sci (-17792467389053190) 0);
   (sci (-93182402277619980) (-1), sci (-17792467389053190) 0);
   (sci 17792467389053190 0, sci 93182402277619980 (-1));
   (sci (-17792467389053190) 0, sci 93182402277619980 (-1));
   (sci 17792467389053190 0, sci (-93182402277619980) (-1));
   (sci (-17792467389053190) 0, sci (-93182402277619980) (-1))].

(** _cub2d_auto.py:217-235 *)
Definition e2r2_13_36_wts : list Z :=
  [sci 40553465034375560 (-3);
   sci 40553465034375560 (-3);
   sci 40553465034375560 (-3);
   sci 40553465034375560 (-3);
   sci 11962714138576389 (-1);
   sci 11962714138576389 (-1);
   sci 11962714138576389 (-1);
   sci 11962714138576389 (-1);
   sci 44548945821552660 (-1);
   sci 44548945821552660 (-1);
   sci 44548945821552660 (-1);
   sci 44548945821552660 (-1);
   sci 50912352191625663 (-4);
   sci 50912352191625663 (-4);
   sci 50912352191625663 (-4);
   sci 50912352191625663 (-4);
   sci 18135069243713553 (-1);
   sci 18135069243713553 (-1);
   sci 18135069243713553 (-1);
   sci 18135069243713553 (-1);
   sci 75744694043053035 (-5);
   sci 75744694043053035 (-5);
   sci 75744694043053035 (-5);
   sci 75744694043053035 (-5);
   sci 75744694043053035 (-5);
   sci 75744694043053035 (-5);
   sci 75744694043053035 (-5);
   sci 75744694043053035 (-5);
   sci 17107455972791175 (-2);
   sci 17107455972791175 (-2);
   sci 17107455972791175 (-2);
   sci 17107455972791175 (-2);
   sci 17107455972791175 (-2);
   sci 17107455972791175 (-2);
   sci 17107455972791175 (-2);
   sci 17107455972791175 (-2)].

(** _cub2d_auto.py:244-253 *)
Definition e2r2_5_9b_absc : list (Z * Z) :=
  [(0, 0);
   (sci 13065629648763766 0, sci 54119610014619701 (-1));
   (sci (-13065629648763766) 0, sci 54119610014619701 (-1));
   (sci 13065629648763766 0, sci (-54119610014619701) (-1));
   (sci (-13065629648763766) 0, sci (-54119610014619701) (-1));
   (sci 54119610014619701 (-1), sci 13065629648763766 0);
   (sci (-54119610014619701) (-1), sci 13065629648763766 0);
   (sci 54119610014619701 (-1), sci (-13065629648763766) 0);
   (sci (-54119610014619701) (-1), sci (-13065629648763766) 0)].

(** _cub2d_auto.py:255-260 *)
Definition e2r2_5_9b_wts : list Z :=
  [sci 15707963267948966 0;
   sci 19634954084936207 (-1);
   sci 19634954084936207 (-1);
   sci 19634954084936207 (-1);
   sci 19634954084936207 (-1);
   sci 19634954084936207 (-1);
   sci 19634954084936207 (-1);
   sci 19634954084936207 (-1);
   sci 19634954084936207 (-1)].

(** _cub2d_auto.py:269-278 *)
Definition e2r2_5_9a_absc : list (Z * Z) :=
  [(sci 10000000000000000 0, sci 10000000000000000 0);
   (sci (-10000000000000000) 0, sci 10000000000000000 0);
   (sci 10000000000000000 0, sci (-10000000000000000) 0);
   (sci (-10000000000000000) 0, sci (-10000000000000000) 0);
   (0, 0);
   (sci 14142135623730949 0, 0);
   (sci (-14142135623730949) 0, 0);
   (0, sci 14142135623730949 0);
   (0, sci (-14142135623730949) 0)].

(** _cub2d_auto.py:280-285 *)
Definition e2r2_5_9a_wts : list Z :=
  [sci 19634954084936207 (-1);
   sci 19634954084936207 (-1);
   sci 19634954084936207 (-1);
   sci 19634954084936207 (-1);
   sci 15707963267948966 0;
   sci 19634954084936207 (-1);
   sci 19634954084936207 (-1);
   sci 19634954084936207 (-1);
   sci 19634954084936207 (-1)].

(** _cub2d_auto.py:294-335 *)
Definition e2r2_13_41_absc : list (Z * Z) :=
  [(sci 24494897427831779 0, 0);
   (sci 19816788294587098 0, sci 14397739464496353 0);
   (sci 75693395806712094 (-1), sci 23296031814720810 0);
   (sci (-75693395806712049) (-1), sci 23296031814720810 0);
   (sci (-19816788294587093) 0, sci 14397739464496355 0);
   (sci (-24494897427831779) 0, sci 29997597730436923 (-16));
   (sci (-19816788294587100) 0, sci (-14397739464496351) 0);
   (sci (-75693395806712116) (-1), sci (-23296031814720810) 0);
   (sci 75693395806712016 (-1), sci (-23296031814720810) 0);
   (sci 19816788294587091 0, sci (-14397739464496360) 0);
   (sci 92897653516474088 (-1), 0);
   (sci 75155780432383135 (-1), sci 54603870709559477 (-1));
   (sci 28706953674146096 (-1), sci 88350918725372063 (-1));
   (sci (-28706953674146080) (-1), sci 88350918725372074 (-1));
   (sci (-75155780432383124) (-1), sci 54603870709559488 (-1));
   (sci (-92897653516474088) (-1), sci 11376681402724985 (-16));
   (sci (-75155780432383146) (-1), sci (-54603870709559466) (-1));
   (sci (-28706953674146107) (-1), sci (-88350918725372063) (-1));
   (sci 28706953674146068 (-1), sci (-88350918725372074) (-1));
   (sci 75155780432383112 (-1), sci (-54603870709559499) (-1));
   (sci 17162505238049739 0, 0);
   (sci 13884758403631292 0, sci 10087867471317957 0);
   (sci 53035057846064237 (-1), sci 16322512442596910 0);
   (sci (-53035057846064204) (-1), sci 16322512442596910 0);
   (sci (-13884758403631290) 0, sci 10087867471317959 0);
   (sci (-17162505238049739) 0, sci 21018007105127295 (-16));
   (sci (-13884758403631294) 0, sci (-10087867471317955) 0);
   (sci (-53035057846064249) (-1), sci (-16322512442596910) 0);
   (sci 53035057846064182 (-1), sci (-16322512442596910) 0);
   (sci 13884758403631288 0, sci (-10087867471317962) 0);
   (sci 30727002354041089 0, 0);
   (sci 24858667090618258 0, sci 18060878830861458 0);
   (sci 94951659135977140 (-1), sci 29223115815027301 0);
   (sci (-94951659135977085) (-1), sci 29223115815027301 0);
   (sci (-24858667090618254) 0, sci 18060878830861460 0);
   (sci (-30727002354041089) 0, sci 37629725080269607 (-16));
   (sci (-24858667090618258) 0, sci (-18060878830861453) 0);
   (sci (-94951659135977173) (-1), sci (-29223115815027301) 0);
   (sci 94951659135977051 (-1), sci (-29223115815027301) 0);
   (sci 24858667090618249 0, sci (-18060878830861464) 0);
   (0, 0)].

(** _cub2d_auto.py:337-358 *)
Definition e2r2_13_41_wts : list Z :=
  [sci 24240684055476798 (-3);
   sci 24240684055476798 (-3);
   sci 24240684055476798 (-3);
   sci 24240684055476798 (-3);
   sci 24240684055476798 (-3);
   sci 24240684055476798 (-3);
   sci 24240684055476798 (-3);
   sci 24240684055476798 (-3);
   sci 24240684055476798 (-3);
   sci 24240684055476798 (-3);
   sci 19404444552734862 (-1);
   sci 19404444552734862 (-1);
   sci 19404444552734862 (-1);
   sci 19404444552734862 (-1);
   sci 19404444552734862 (-1);
   sci 19404444552734862 (-1);
   sci 19404444552734862 (-1);
   sci 19404444552734862 (-1);
   sci 19404444552734862 (-1);
   sci 19404444552734862 (-1);
   sci 44486553170629953 (-2);
   sci 44486553170629953 (-2);
   sci 44486553170629953 (-2);
   sci 44486553170629953 (-2);
   sci 44486553170629953 (-2);
   sci 44486553170629953 (-2);
   sci 44486553170629953 (-2);
   sci 44486553170629953 (-2);
   sci 44486553170629953 (-2);
   sci 44486553170629953 (-2);
   sci 11853582819051242 (-4);
   sci 11853582819051242 (-4);
   sci 11853582819051242 (-4);
   sci 11853582819051242 (-4);
   sci 11853582819051242 (-4);
   sci 11853582819051242 (-4);
   sci 11853582819051242 (-4);
   sci 11853582819051242 (-4);
   sci 11853582819051242 (-4);
   sci 11853582819051242 (-4);
   sci 73085662427262554 (-1)].

(** _cub2d_auto.py:367-386 *)
Definition e2r2_9_19a_absc : list (Z * Z) :=
  [(sci 20000000000000000 0, 0);
   (sci 10000000000000002 0, sci 17320508075688772 0);
   (sci (-99999999999999967) (-1), sci 17320508075688774 0);
   (sci (-20000000000000000) 0, sci 24492935982947064 (-16));
   (sci (-10000000000000009) 0, sci (-17320508075688767) 0);
   (sci 99999999999999867 (-1), sci (-17320508075688781) 0);
   (sci 11024690870412086 0, 0);
   (sci 55123454352060441 (-1), sci 95476623626472401 (-1));
   (sci (-55123454352060408) (-1), sci 95476623626472423 (-1));
   (sci (-11024690870412086) 0, sci 13501352386039209 (-16));
   (sci (-55123454352060475) (-1), sci (-95476623626472379) (-1));
   (sci 55123454352060353 (-1), sci (-95476623626472457) (-1));
   (sci 23752273089667399 0, 0);
   (sci 11876136544833702 0, sci 20570071893277464 0);
   (sci (-11876136544833695) 0, sci 20570071893277468 0);
   (sci (-23752273089667399) 0, sci 29088145211734994 (-16));
   (sci (-11876136544833711) 0, sci (-20570071893277460) 0);
   (sci 11876136544833684 0, sci (-20570071893277473) 0);
   (0, 0)].

(** _cub2d_auto.py:388-398 *)
Definition e2r2_9_19a_wts : list Z :=
  [sci 24543692606170259 (-2);
   sci 24543692606170259 (-2);
   sci 24543692606170259 (-2);
   sci 24543692606170259 (-2);
   sci 24543692606170259 (-2);
   sci 24543692606170259 (-2);
   sci 32447320274634295 (-1);
   sci 32447320274634295 (-1);
   sci 32447320274634295 (-1);
   sci 32447320274634295 (-1);
   sci 32447320274634295 (-1);
   sci 32447320274634295 (-1);
   sci 55031089588349581 (-3);
   sci 55031089588349581 (-3);
   sci 55031089588349581 (-3);
   sci 55031089588349581 (-3);
   sci 55031089588349581 (-3);
   sci 55031089588349581 (-3);
   sci 10144726277217040 0].

(** _cub2d_auto.py:407-435 *)
Definition e2r2_11_28c_absc : list (Z * Z) :=
  [(sci 22360679774997898 0, 0);
   (sci 15811388300841895 0, sci 15811388300841898 0);
   (sci 13691967456605067 (-16), sci 22360679774997898 0);
   (sci (-15811388300841895) 0, sci 15811388300841898 0);
   (sci (-22360679774997898) 0, sci 27383934913210134 (-16));
   (sci (-15811388300841902) 0, sci (-15811388300841893) 0);
   (sci (-41075902369815199) (-16), sci (-22360679774997898) 0);
   (sci 15811388300841893 0, sci (-15811388300841902) 0);
   (sci 13765979318520745 0, 0);
   (sci 84292312547775463 (-17), sci 13765979318520745 0);
   (sci (-13765979318520745) 0, sci 16858462509555093 (-16));
   (sci (-25287693764332635) (-16), sci (-13765979318520745) 0);
   (sci 26825150931410771 0, 0);
   (sci 16425667612398419 (-16), sci 26825150931410771 0);
   (sci (-26825150931410771) 0, sci 32851335224796838 (-16));
   (sci (-49277002837195262) (-16), sci (-26825150931410771) 0);
   (sci 61791116665497925 (-1), 0);
   (sci 37836146620071352 (-17), sci 61791116665497925 (-1));
   (sci (-61791116665497925) (-1), sci 75672293240142704 (-17));
   (sci (-11350843986021405) (-16), sci (-61791116665497925) (-1));
   (sci 15261898960020961 0, 0);
   (sci 93452178551499938 (-17), sci 15261898960020961 0);
   (sci (-15261898960020961) 0, sci 18690435710299988 (-16));
   (sci (-28035653565449981) (-16), sci (-15261898960020961) 0);
   (sci 29220203379272203 0, 0);
   (sci 17892214269430188 (-16), sci 29220203379272203 0);
   (sci (-29220203379272203) 0, sci 35784428538860376 (-16));
   (sci (-53676642808290559) (-16), sci (-29220203379272203) 0)].

(** _cub2d_auto.py:437-451 *)
Definition e2r2_11_28c_wts : list Z :=
  [sci 75398223686155034 (-3);
   sci 75398223686155034 (-3);
   sci 75398223686155034 (-3);
   sci 75398223686155034 (-3);
   sci 75398223686155034 (-3);
   sci 75398223686155034 (-3);
   sci 75398223686155034 (-3);
   sci 75398223686155034 (-3);
   sci 15137267598023796 (-1);
   sci 15137267598023796 (-1);
   sci 15137267598023796 (-1);
   sci 15137267598023796 (-1);
   sci 10294743039068897 (-3);
   sci 10294743039068897 (-3);
   sci 10294743039068897 (-3);
   sci 10294743039068897 (-3);
   sci 52680403237854612 (-1);
   sci 52680403237854612 (-1);
   sci 52680403237854612 (-1);
   sci 52680403237854612 (-1);
   sci 90730267409198290 (-2);
   sci 90730267409198290 (-2);
   sci 90730267409198290 (-2);
   sci 90730267409198290 (-2);
   sci 38206858832799765 (-4);
   sci 38206858832799765 (-4);
   sci 38206858832799765 (-4);
   sci 38206858832799765 (-4)].

(** _cub2d_auto.py:459-474: the contents of rule_dict, without the functions,
    which NormWtCub2D ignores.  The abscissas and weights of the i-th name are
    the i-th arrays of the store below. *)
Definition tables : list (string * (list (Z * Z) * list Z)) :=
  [("e2r2_3_4a"%string, (e2r2_3_4a_absc, e2r2_3_4a_wts));
   ("e2r2_9_21"%string, (e2r2_9_21_absc, e2r2_9_21_wts));
   ("e2r2_11_28a"%string, (e2r2_11_28a_absc, e2r2_11_28a_wts));
   ("e2r2_7_12"%string, (e2r2_7_12_absc, e2r2_7_12_wts));
   ("e2_r2_3_4b"%string, (e2_r2_3_4b_absc, e2_r2_3_4b_wts));
   ("e2r2_13_36"%string, (e2r2_13_36_absc, e2r2_13_36_wts));
   ("e2r2_5_9b"%string, (e2r2_5_9b_absc, e2r2_5_9b_wts));
   ("e2r2_5_9a"%string, (e2r2_5_9a_absc, e2r2_5_9a_wts));
   ("e2r2_13_41"%string, (e2r2_13_41_absc, e2r2_13_41_wts));
   ("e2r2_9_19a"%string, (e2r2_9_19a_absc, e2r2_9_19a_wts));
   ("e2r2_11_28c"%string, (e2r2_11_28c_absc, e2r2_11_28c_wts))].
