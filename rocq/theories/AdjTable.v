(** Cluster centres of the spectral adjustment: _SPECHOMO_CENTER_,
    src/modules/higher-level/spec-adjust-hl.c:62-118, by sensor, band and cluster.  The
    row of the fifth band of the last sensor has 50 entries there; C fills it with 0. *)
From Verif Require Import Base.
Definition centers : list (list (list Z)) := [
  [[1000; 1260; 480; 6810; 1072; 693; 308; 1381; 3436; 442; 554; 444; 7408; 3845; 640; 215; 677; 348; 556; 7855; 1567; 1454; 423; 2147; 288; 418; 2077; 914; 1254; 723; 373; 405; 939; 549; 655; 1555; 469; 1258; 489; 5768; 735; 1322; 841; 1809; 2173; 7194; 568; 665; 765; 605; 749];
   [1161; 1684; 694; 6520; 1528; 992; 485; 2163; 2122; 676; 799; 677; 7183; 3777; 929; 424; 978; 501; 763; 7590; 1730; 1594; 734; 4608; 435; 654; 3538; 1244; 1493; 1033; 580; 575; 1061; 722; 819; 1592; 674; 1892; 710; 5608; 1072; 2072; 1098; 2046; 2277; 7043; 817; 942; 1182; 856; 1036];
   [1226; 1931; 712; 6343; 1932; 1192; 372; 2637; 2803; 614; 992; 614; 7017; 3692; 1162; 296; 1228; 408; 883; 7415; 1714; 1556; 654; 5081; 341; 595; 3578; 1295; 1611; 1265; 412; 463; 1037; 929; 924; 1109; 668; 2290; 785; 5497; 1297; 2496; 1202; 2157; 2293; 6914; 859; 1162; 1534; 1191; 1099];
   [1503; 2385; 2935; 6589; 2563; 1849; 4201; 3320; 5508; 2873; 1546; 3430; 7089; 4326; 1587; 5134; 2443; 3171; 2386; 7633; 1733; 3105; 4199; 5161; 3521; 3560; 4485; 3065; 1855; 1863; 4410; 3275; 2325; 1338; 1552; 1055; 2271; 2913; 2699; 5989; 2246; 3024; 2102; 2310; 3019; 7226; 2143; 1683; 2042; 1625; 2393];
   [1611; 2843; 2107; 5327; 4116; 2811; 1571; 4833; 463; 1566; 2124; 1907; 5883; 3735; 2017; 1958; 2663; 1480; 2706; 6353; 1569; 2255; 4109; 4997; 1468; 2181; 3904; 2100; 2190; 2756; 1772; 1465; 1716; 3126; 2676; 892; 1631; 4495; 2244; 5094; 2438; 4133; 2301; 1961; 2590; 6079; 2154; 2589; 2429; 3249; 2255];
   [1423; 2470; 1192; 4304; 3474; 2209; 622; 4001; 375; 826; 1657; 985; 4837; 3303; 1628; 800; 1771; 661; 1716; 5295; 1249; 1504; 3336; 3803; 616; 1172; 2767; 1367; 1959; 2165; 724; 656; 1286; 3211; 2079; 639; 953; 3830; 1337; 4399; 1769; 3601; 1803; 1553; 2198; 5042; 1426; 2082; 1894; 3167; 1633]];
  [[746; 1383; 306; 6452; 466; 552; 414; 782; 3424; 3808; 842; 529; 1974; 1256; 1051; 661; 583; 6002; 728; 493; 6230; 2107; 377; 383; 551; 1292; 1315; 743; 1486; 1177; 418; 7903; 484; 419; 683; 401; 1745; 633; 696; 580; 1715; 791; 1010; 7433; 1095; 856; 584; 317; 217; 1361; 759];
   [1059; 2173; 448; 6200; 674; 764; 650; 1156; 2125; 3741; 971; 759; 2404; 1889; 1305; 934; 796; 5817; 977; 718; 6064; 4464; 582; 540; 732; 1980; 1493; 1055; 1511; 1587; 620; 7618; 695; 731; 1097; 604; 1941; 909; 826; 839; 1985; 1181; 1171; 7226; 1559; 1241; 837; 493; 431; 1509; 1050];
   [1278; 2671; 364; 6016; 671; 888; 588; 1482; 2811; 3658; 943; 946; 2332; 2295; 1428; 1167; 946; 5710; 1097; 789; 5913; 4887; 406; 432; 958; 2383; 1553; 1290; 1006; 1836; 535; 7442; 718; 646; 1163; 535; 1832; 1139; 905; 875; 2129; 1502; 1237; 7075; 1970; 1498; 1194; 367; 299; 1481; 1113];
   [1900; 3357; 3034; 6236; 2322; 2465; 3582; 2879; 5516; 4242; 2272; 1490; 3210; 2914; 1823; 2249; 1671; 6193; 2061; 2755; 5920; 5095; 4466; 3241; 1364; 2887; 1682; 1920; 927; 2264; 2974; 7661; 2915; 4251; 3301; 3422; 2091; 1661; 1299; 2167; 2571; 1964; 1506; 7373; 2596; 2311; 1624; 4238; 5018; 3124; 2423];
   [2988; 4864; 1391; 5003; 1651; 2732; 2169; 2993; 462; 3657; 1635; 2037; 2612; 4499; 2160; 2582; 2465; 5259; 2145; 2265; 4911; 4881; 1755; 1460; 3166; 3927; 1710; 2846; 767; 2738; 1472; 6334; 2134; 4170; 1802; 1933; 1753; 2465; 2647; 2112; 2258; 2360; 1614; 6189; 4169; 2600; 3191; 1633; 1926; 2278; 2286];
   [2386; 4001; 613; 3983; 956; 1708; 1160; 1912; 375; 3219; 1179; 1582; 1874; 3829; 1878; 1765; 1836; 4551; 1613; 1348; 3998; 3653; 708; 648; 3250; 3435; 1469; 2209; 555; 2386; 708; 5241; 1210; 3389; 1124; 968; 1260; 1976; 2236; 1400; 1860; 1872; 1427; 5189; 3524; 2024; 3111; 656; 790; 1547; 1655]];
  [[636; 622; 6971; 1244; 340; 207; 3894; 1394; 543; 592; 379; 3640; 1083; 6136; 6684; 1293; 631; 1045; 1624; 394; 1223; 761; 404; 288; 1933; 457; 679; 739; 1342; 559; 841; 1524; 8038; 1983; 739; 974; 5906; 742; 656; 393; 425; 481; 281; 1031; 1386; 501; 583; 359; 547; 1264; 729];
   [903; 919; 6795; 1840; 508; 449; 3826; 1543; 761; 821; 548; 2160; 1517; 5996; 6413; 1774; 884; 1630; 1835; 631; 1870; 912; 728; 459; 2350; 669; 834; 1069; 2055; 743; 1229; 1869; 7753; 4275; 1038; 1156; 5737; 1041; 1069; 575; 641; 711; 428; 1202; 1516; 717; 807; 584; 692; 1506; 1016];
   [1169; 893; 6663; 2319; 596; 276; 3732; 1483; 984; 1007; 417; 2820; 2001; 5853; 6219; 2136; 1130; 2331; 1860; 529; 2365; 882; 617; 329; 2285; 650; 941; 1396; 2613; 870; 1563; 2016; 7559; 4864; 1301; 1264; 5621; 1320; 1137; 461; 583; 768; 319; 1273; 903; 823; 1248; 371; 941; 1645; 1083];
   [1600; 2535; 6983; 2926; 1501; 4980; 4364; 3152; 1522; 2336; 3179; 5550; 2626; 5925; 6493; 2618; 1700; 3170; 1983; 3596; 2853; 2110; 4230; 3666; 3012; 2417; 1450; 2677; 3272; 2103; 2489; 2461; 7769; 5105; 1912; 1586; 6107; 1926; 3320; 2961; 3160; 2859; 2913; 1558; 810; 2412; 1693; 4502; 1341; 1865; 2377];
   [2001; 2343; 5853; 4504; 1349; 1953; 3788; 2287; 2101; 2742; 1454; 445; 4234; 4961; 5210; 3104; 2528; 4186; 1754; 2088; 3891; 1574; 4158; 1503; 2481; 1687; 2650; 2883; 4793; 2844; 2720; 2194; 6377; 4953; 2983; 1782; 5187; 2841; 1774; 1390; 2057; 2287; 1327; 1666; 671; 2277; 3300; 1770; 3128; 2241; 2254];
   [1610; 1461; 4802; 3877; 912; 779; 3298; 1505; 1644; 1788; 627; 371; 3604; 3943; 4123; 2697; 2005; 2599; 1368; 1049; 3400; 1133; 3405; 604; 1782; 936; 2148; 1870; 4037; 1854; 2010; 1728; 5271; 3645; 2400; 1573; 4415; 2226; 1091; 634; 1061; 1327; 563; 1457; 481; 1385; 3199; 673; 3231; 2023; 1620]];
  [[601; 580; 8068; 891; 330; 4996; 1707; 727; 453; 1049; 511; 276; 1240; 3403; 700; 402; 7258; 415; 1451; 1602; 806; 1539; 683; 499; 285; 658; 2043; 6349; 554; 729; 479; 1028; 7660; 604; 202; 1313; 550; 3766; 1317; 1261; 356; 1312; 402; 448; 3608; 859; 381; 1588; 1357; 2005; 783];
   [861; 859; 7780; 1263; 516; 4880; 1927; 993; 698; 1150; 770; 460; 1912; 2121; 996; 708; 6947; 645; 1646; 1830; 1140; 1721; 985; 696; 506; 833; 4453; 6151; 764; 1071; 722; 1192; 7461; 840; 474; 1867; 696; 2184; 1999; 1517; 621; 1847; 760; 772; 3559; 1138; 575; 1936; 2038; 3012; 1093];
   [1417; 865; 7579; 1765; 358; 4755; 1914; 1191; 642; 1079; 744; 298; 2386; 2773; 1224; 570; 6725; 541; 1544; 1954; 1406; 1117; 1263; 903; 326; 949; 4860; 5985; 854; 1298; 757; 1255; 7298; 1083; 265; 2263; 944; 2853; 2730; 1650; 367; 2206; 582; 630; 3459; 1234; 409; 2102; 2485; 2932; 1114];
   [1971; 2221; 7750; 2414; 3223; 5370; 2068; 1659; 2281; 2505; 3101; 3657; 3114; 4903; 1969; 3757; 6857; 2724; 3233; 2223; 2105; 1060; 2704; 1444; 4253; 1675; 5162; 6403; 2525; 2364; 2761; 1554; 7429; 1619; 5303; 2922; 1390; 6093; 3606; 1940; 4320; 2876; 4336; 3532; 4340; 2258; 3216; 2227; 3136; 4063; 2557];
   [3649; 2158; 6298; 3749; 1486; 4570; 1872; 2009; 1571; 1794; 2247; 1479; 4521; 444; 2929; 2307; 5515; 1479; 2369; 2042; 3059; 946; 2896; 1951; 1541; 2728; 5030; 5244; 2799; 2463; 2243; 1672; 6152; 2448; 2007; 3369; 3108; 371; 5064; 2299; 1814; 4335; 4177; 1930; 3728; 2486; 1438; 2268; 4293; 3516; 2372];
   [3507; 1453; 5464; 3149; 671; 4056; 1389; 1642; 909; 1376; 1276; 632; 3809; 408; 2272; 1243; 4682; 779; 1475; 1608; 2428; 640; 1878; 1530; 638; 2113; 3648; 4439; 1774; 1796; 1336; 1477; 5222; 1974; 828; 2901; 3245; 345; 3073; 2065; 741; 3784; 3438; 1027; 3365; 1939; 639; 1919; 3713; 2378; 1718]];
  [[601; 580; 8068; 891; 330; 4996; 1707; 727; 453; 1049; 511; 276; 1240; 3403; 700; 402; 7258; 415; 1451; 1602; 806; 1539; 683; 499; 285; 658; 2043; 6349; 554; 729; 479; 1028; 7660; 604; 202; 1313; 550; 3766; 1317; 1261; 356; 1312; 402; 448; 3608; 859; 381; 1588; 1357; 2005; 783];
   [861; 859; 7780; 1263; 516; 4880; 1927; 993; 698; 1150; 770; 460; 1912; 2121; 996; 708; 6947; 645; 1646; 1830; 1140; 1721; 985; 696; 506; 833; 4453; 6151; 764; 1071; 722; 1192; 7461; 840; 474; 1867; 696; 2184; 1999; 1517; 621; 1847; 760; 772; 3559; 1138; 575; 1936; 2038; 3012; 1093];
   [1417; 865; 7579; 1765; 358; 4755; 1914; 1191; 642; 1079; 744; 298; 2386; 2773; 1224; 570; 6725; 541; 1544; 1954; 1406; 1117; 1263; 903; 326; 949; 4860; 5985; 854; 1298; 757; 1255; 7298; 1083; 265; 2263; 944; 2853; 2730; 1650; 367; 2206; 582; 630; 3459; 1234; 409; 2102; 2485; 2932; 1114];
   [1971; 2221; 7750; 2414; 3223; 5370; 2068; 1659; 2281; 2505; 3101; 3657; 3114; 4903; 1969; 3757; 6857; 2724; 3233; 2223; 2105; 1060; 2704; 1444; 4253; 1675; 5162; 6403; 2525; 2364; 2761; 1554; 7429; 1619; 5303; 2922; 1390; 6093; 3606; 1940; 4320; 2876; 4336; 3532; 4340; 2258; 3216; 2227; 3136; 4063; 2557];
   [3649; 2158; 6298; 3749; 1486; 4570; 1872; 2009; 1571; 1794; 2247; 1479; 4521; 444; 2929; 2307; 5515; 1479; 2369; 2042; 3059; 946; 2896; 1951; 1541; 2728; 5030; 5244; 2799; 2463; 2243; 1672; 6152; 2448; 2007; 3369; 3108; 371; 5064; 2299; 1814; 4335; 4177; 1930; 3728; 2486; 1438; 2268; 4293; 3516; 2372];
   [3507; 1453; 5464; 3149; 671; 4056; 1389; 1642; 909; 1376; 1276; 632; 3809; 408; 2272; 1243; 4682; 779; 1475; 1608; 2428; 640; 1878; 1530; 638; 2113; 3648; 4439; 1774; 1796; 1336; 1477; 5222; 1974; 828; 2901; 3245; 345; 3073; 2065; 741; 3784; 3438; 1027; 3365; 1939; 639; 1919; 3713; 2378; 1718]];
  [[654; 437; 7170; 437; 1347; 363; 4057; 1000; 751; 970; 532; 8149; 4243; 1632; 1498; 365; 1006; 4053; 349; 1191; 780; 455; 194; 1217; 972; 1848; 808; 406; 668; 748; 1005; 351; 5821; 7967; 738; 1157; 391; 1753; 1893; 997; 482; 798; 3254; 484; 1349; 502; 626; 1322; 237; 999; 800];
   [943; 734; 6887; 615; 1967; 669; 3952; 1405; 1165; 1101; 751; 7869; 2169; 2171; 1850; 572; 1335; 4006; 599; 1933; 1205; 817; 556; 1512; 1163; 3485; 1258; 747; 1044; 1077; 1170; 577; 5590; 7562; 1045; 1774; 803; 2063; 4512; 1484; 740; 1101; 3209; 818; 2274; 702; 977; 1645; 412; 1688; 1150];
   [1213; 637; 6758; 830; 2412; 381; 3866; 1702; 1224; 1034; 838; 7742; 2672; 1678; 1685; 486; 1273; 3986; 373; 2472; 1561; 678; 288; 1645; 1233; 3291; 1533; 428; 1302; 1378; 1238; 425; 5471; 7385; 1758; 2233; 606; 2175; 4883; 1985; 800; 1333; 3133; 706; 2927; 864; 938; 922; 258; 2321; 1180];
   [2779; 2534; 7102; 1330; 3076; 4671; 4541; 2424; 2696; 2383; 2085; 7915; 5489; 1826; 3035; 2520; 3039; 4068; 4043; 3241; 2414; 3637; 5488; 1968; 1606; 4352; 2591; 4736; 3134; 2093; 1480; 2767; 5998; 7556; 2485; 2969; 4242; 2320; 5197; 2821; 2591; 2014; 4068; 3064; 3648; 1450; 2508; 791; 2689; 3401; 2630];
   [3331; 1936; 6045; 1858; 3573; 1931; 4012; 3830; 2440; 1807; 2862; 6714; 428; 1711; 2449; 1556; 2408; 3381; 1829; 4815; 3026; 2455; 2178; 2316; 1770; 3909; 2872; 2183; 2991; 3519; 1621; 1436; 5146; 6248; 4295; 4587; 3844; 2233; 5110; 4089; 2801; 3305; 3579; 2116; 5103; 1769; 2301; 692; 1294; 4666; 2543];
   [2112; 1012; 4747; 1522; 3191; 629; 3415; 3315; 1695; 1346; 1828; 5073; 336; 1227; 1550; 786; 1498; 2672; 628; 4331; 2315; 1251; 735; 2133; 1619; 2721; 2206; 723; 1721; 2975; 1510; 576; 4172; 4826; 4156; 4142; 3120; 1957; 3861; 3456; 1597; 2779; 3113; 1083; 4772; 1422; 1492; 511; 490; 2728; 1833]];
  [[517; 4032; 1170; 551; 458; 5729; 442; 629; 3116; 487; 926; 4244; 833; 1890; 1253; 943; 6999; 1685; 275; 300; 857; 192; 1840; 542; 755; 7944; 1336; 340; 711; 343; 419; 4093; 1106; 362; 501; 453; 711; 1297; 658; 1034; 1355; 8219; 1162; 741; 397; 665; 331; 1492; 1375; 383; 717];
   [739; 4045; 1672; 882; 855; 5497; 785; 893; 3081; 748; 1122; 2170; 1273; 4503; 2007; 1385; 6704; 2002; 462; 510; 1000; 553; 3414; 763; 1152; 7543; 1664; 623; 1007; 667; 593; 3983; 1488; 584; 833; 747; 1094; 1451; 853; 1222; 2027; 7938; 1825; 1085; 750; 972; 513; 1824; 2284; 794; 1050];
   [978; 4026; 2038; 851; 667; 5376; 647; 1171; 3010; 820; 1214; 2673; 1317; 4866; 2657; 1751; 6580; 2123; 459; 318; 941; 286; 3211; 849; 1507; 7365; 931; 374; 1710; 376; 785; 3895; 1668; 436; 811; 687; 1219; 1480; 950; 1290; 2560; 7807; 2315; 1368; 422; 1216; 358; 1670; 2912; 590; 1093];
   [1338; 4139; 2722; 2440; 3979; 5917; 3258; 1745; 3928; 2621; 1602; 5490; 3152; 5187; 3517; 2577; 6945; 2271; 1681; 3285; 2200; 5498; 4301; 2058; 3256; 7537; 803; 4271; 2423; 4711; 1312; 4611; 2283; 2752; 3090; 2758; 2487; 1563; 1543; 1571; 3282; 7985; 3077; 2095; 4826; 2449; 2924; 3153; 3625; 4300; 2452];
   [-1; -1; -1; -1; -1; -1; -1; -1; -1; -1; -1; -1; -1; -1; -1; -1; -1; -1; -1; -1; -1; -1; -1; -1; -1; -1; -1; -1; -1; -1; -1; -1; -1; -1; -1; -1; -1; -1; -1; -1; -1; -1; -1; -1; -1; -1; -1; -1; -1; -1; 0];
   [1473; 2630; 3896; 1293; 1199; 4103; 1076; 2241; 3009; 1647; 1695; 335; 1541; 3840; 4336; 3152; 4647; 1964; 719; 554; 1252; 731; 2666; 1798; 2013; 4810; 521; 641; 4093; 633; 1420; 3477; 2356; 589; 1548; 1098; 1896; 1539; 2235; 1596; 3344; 5109; 4149; 2862; 721; 1983; 582; 1560; 4739; 3250; 1712]]].
