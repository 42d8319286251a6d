(** Model of the XML character classes, src/XML/XMLCharacterClasses.cpp.  The
    argument is the wchar_t value (signed 32-bit on Linux). No proofs here. *)
From Verif.Model Require Import Base.

Definition within (a b c : Z) : bool := (a <=? c) && (c <=? b).

(** base_char_ranges, :6-76, with its {0, 0} end marker. *)
Definition base_char_ranges : list (Z * Z) :=
  [(65, 90); (97, 122); (192, 214); (216, 246); (248, 255); (256, 305); (308, 318);
   (321, 328); (330, 382); (384, 451); (461, 496); (500, 501); (506, 535); (592, 680);
   (699, 705); (902, 902); (904, 906); (908, 908); (910, 929); (931, 974); (976, 982);
   (986, 986); (988, 988); (990, 990); (992, 992); (994, 1011); (1025, 1036);
   (1038, 1103); (1105, 1116); (1118, 1153); (1168, 1220); (1223, 1224); (1227, 1228);
   (1232, 1259); (1262, 1269); (1272, 1273); (1329, 1366); (1369, 1369); (1377, 1414);
   (1488, 1514); (1520, 1522); (1569, 1594); (1601, 1610); (1649, 1719); (1722, 1726);
   (1728, 1742); (1744, 1747); (1749, 1749); (1765, 1766); (2309, 2361); (2365, 2365);
   (2392, 2401); (2437, 2444); (2447, 2448); (2451, 2472); (2474, 2480); (2482, 2482);
   (2486, 2489); (2524, 2525); (2527, 2529); (2544, 2545); (2565, 2570); (2575, 2576);
   (2579, 2600); (2602, 2608); (2610, 2611); (2613, 2614); (2616, 2617); (2649, 2652);
   (2654, 2654); (2674, 2676); (2693, 2699); (2701, 2701); (2703, 2705); (2707, 2728);
   (2730, 2736); (2738, 2739); (2741, 2745); (2749, 2749); (2784, 2784); (2821, 2828);
   (2831, 2832); (2835, 2856); (2858, 2864); (2866, 2867); (2870, 2873); (2877, 2877);
   (2908, 2909); (2911, 2913); (2949, 2954); (2958, 2960); (2962, 2965); (2969, 2970);
   (2972, 2972); (2974, 2975); (2979, 2980); (2984, 2986); (2990, 2997); (2999, 3001);
   (3077, 3084); (3086, 3088); (3090, 3112); (3114, 3123); (3125, 3129); (3168, 3169);
   (3205, 3212); (3214, 3216); (3218, 3240); (3242, 3251); (3253, 3257); (3294, 3294);
   (3296, 3297); (3333, 3340); (3342, 3344); (3346, 3368); (3370, 3385); (3424, 3425);
   (3585, 3630); (3632, 3632); (3634, 3635); (3648, 3653); (3713, 3714); (3716, 3716);
   (3719, 3720); (3722, 3722); (3725, 3725); (3732, 3735); (3737, 3743); (3745, 3747);
   (3749, 3749); (3751, 3751); (3754, 3755); (3757, 3758); (3760, 3760); (3762, 3763);
   (3773, 3773); (3776, 3780); (3904, 3911); (3913, 3945); (4256, 4293); (4304, 4342);
   (4352, 4352); (4354, 4355); (4357, 4359); (4361, 4361); (4363, 4364); (4366, 4370);
   (4412, 4412); (4414, 4414); (4416, 4416); (4428, 4428); (4430, 4430); (4432, 4432);
   (4436, 4437); (4441, 4441); (4447, 4449); (4451, 4451); (4453, 4453); (4455, 4455);
   (4457, 4457); (4461, 4462); (4466, 4467); (4469, 4469); (4510, 4510); (4520, 4520);
   (4523, 4523); (4526, 4527); (4535, 4536); (4538, 4538); (4540, 4546); (4587, 4587);
   (4592, 4592); (4601, 4601); (7680, 7835); (7840, 7929); (7936, 7957); (7960, 7965);
   (7968, 8005); (8008, 8013); (8016, 8023); (8025, 8025); (8027, 8027); (8029, 8029);
   (8031, 8061); (8064, 8116); (8118, 8124); (8126, 8126); (8130, 8132); (8134, 8140);
   (8144, 8147); (8150, 8155); (8160, 8172); (8178, 8180); (8182, 8188); (8486, 8486);
   (8490, 8491); (8494, 8494); (8576, 8578); (12353, 12436); (12449, 12538);
   (12549, 12588); (44032, 55203); (0, 0)].

(** is_char, :78-89 (wchar_t build). *)
Definition is_char (c : Z) : bool :=
  (c =? 9) || (c =? 10) || (c =? 13) || within 32 55295 c || within 57344 65533 c
  || within 65536 1114111 c.

(** is_space, :91-97. *)
Definition is_space (c : Z) : bool := (c =? 32) || (c =? 9) || (c =? 13) || (c =? 10).

(** is_base_char, :128-140: the scan stops at the {0, 0} row and, early, at a row
    that starts above [c]. *)
Fixpoint base_scan (t : list (Z * Z)) (c : Z) : bool :=
  match t with
  | [] => false
  | (lo, hi) :: t' =>
      if lo =? 0 then false
      else if c <? lo then false
      else if (lo <=? c) && (c <=? hi) then true
      else base_scan t' c
  end.
Definition is_base_char (c : Z) : bool := base_scan base_char_ranges c.

(** is_ideographic, :142-147. *)
Definition is_ideographic (c : Z) : bool :=
  within 19968 40869 c || (c =? 12295) || within 12321 12329 c.

(** is_digit, :149-166. *)
Definition is_digit (c : Z) : bool :=
  within 48 57 c || within 1632 1641 c || within 1776 1785 c || within 2406 2415 c ||
  within 2534 2543 c || within 2662 2671 c || within 2790 2799 c || within 2918 2927 c ||
  within 3047 3055 c || within 3174 3183 c || within 3302 3311 c || within 3430 3439 c ||
  within 3664 3673 c || within 3792 3801 c || within 3872 3881 c.

(** is_combining_char, :168-265. *)
Definition is_combining_char (c : Z) : bool :=
  within 768 837 c || within 864 865 c || within 1155 1158 c || within 1425 1441 c ||
  within 1443 1465 c || within 1467 1469 c || (c =? 1471) || within 1473 1474 c || (c =? 1476) ||
  within 1611 1618 c || (c =? 1648) || within 1750 1756 c || within 1757 1759 c ||
  within 1760 1764 c || within 1767 1768 c || within 1770 1773 c || within 2305 2307 c ||
  (c =? 2364) || within 2366 2380 c || (c =? 2381) || within 2385 2388 c || within 2402 2403 c ||
  within 2433 2435 c || (c =? 2492) || (c =? 2494) || (c =? 2495) || within 2496 2500 c ||
  within 2503 2504 c || within 2507 2509 c || (c =? 2519) || within 2530 2531 c || (c =? 2562) ||
  (c =? 2620) || (c =? 2622) || (c =? 2623) || within 2624 2626 c || within 2631 2632 c ||
  within 2635 2637 c || within 2672 2673 c || within 2689 2691 c || (c =? 2748) ||
  within 2750 2757 c || within 2759 2761 c || within 2763 2765 c || within 2817 2819 c ||
  (c =? 2876) || within 2878 2883 c || within 2887 2888 c || within 2891 2893 c ||
  within 2902 2903 c || within 2946 2947 c || within 3006 3010 c || within 3014 3016 c ||
  within 3018 3021 c || (c =? 3031) || within 3073 3075 c || within 3134 3140 c ||
  within 3142 3144 c || within 3146 3149 c || within 3157 3158 c || within 3202 3203 c ||
  within 3262 3268 c || within 3270 3272 c || within 3274 3277 c || within 3285 3286 c ||
  within 3330 3331 c || within 3390 3395 c || within 3398 3400 c || within 3402 3405 c ||
  (c =? 3415) || (c =? 3633) || within 3636 3642 c || within 3655 3662 c || (c =? 3761) ||
  within 3764 3769 c || within 3771 3772 c || within 3784 3789 c || within 3864 3865 c ||
  (c =? 3893) || (c =? 3895) || (c =? 3897) || (c =? 3902) || (c =? 3903) || within 3953 3972 c ||
  within 3974 3979 c || within 3984 3989 c || (c =? 3991) || within 3993 4013 c ||
  within 4017 4023 c || (c =? 4025) || within 8400 8412 c || (c =? 8417) ||
  within 12330 12335 c || (c =? 12441) || (c =? 12442).

(** is_extender, :267-280. *)
Definition is_extender (c : Z) : bool :=
  (c =? 183) || (c =? 720) || (c =? 721) || (c =? 903) || (c =? 1600) || (c =? 3654) ||
  (c =? 3782) || (c =? 12293) || within 12337 12341 c || within 12445 12446 c ||
  within 12540 12542 c.

(** is_letter, :122-126; is_letter_or_digit, :282-285. *)
Definition is_letter (c : Z) : bool := is_base_char c || is_ideographic c.
Definition is_letter_or_digit (c : Z) : bool := is_letter c || is_digit c.

(** is_name_char, :99-109. *)
Definition is_name_char (c : Z) : bool :=
  is_letter c || is_digit c || (c =? 46) || (c =? 45) || (c =? 95) || (c =? 58)
  || is_combining_char c || is_extender c.

(** is_ncname_char, :111-120. *)
Definition is_ncname_char (c : Z) : bool :=
  is_letter c || is_digit c || (c =? 46) || (c =? 45) || (c =? 95)
  || is_combining_char c || is_extender c.
