(** The table of critical values of univariate/util/critical_table_values.py:1,
    entry by entry. Every value there is a single-precision number below 8 and, as
    far as it is not 0, at least 1, so a multiple of 2^-23; the lists give the
    multipliers (4.541395664215088 is 38095988 / 2^23). *)
From Coq Require Import List ZArith.
Import ListNotations.
Open Scope Z_scope.

Definition values_00 : list Z := [
  38095988; 38095888; 38095792; 38095692; 38095592; 38095496; 38095396; 38095296; 38095200; 38095100; 38095000; 38094900; 38094804; 38094704; 38094604; 38094508; 38094408; 38094308; 38094212; 38094112;
  38094012; 38093912; 38093816; 38093716; 38093616; 38093520; 38093420; 38093320; 38093224; 38093124; 38093024; 38092924; 38092828; 38092728; 38092628; 38092528; 38092432; 38092332; 38092232; 38092136;
  38092036; 38091936; 38091836; 38091740; 38091640; 38091540; 38091440; 38091344; 38091244; 38091144; 38091044; 38090948; 38090848; 38090748; 38090648; 38090552; 38090452; 38090352; 38090252; 38090156;
  38090056; 38089956; 38089856; 38089760; 38089660; 38089560; 38089460; 38089360; 38089264; 38089164; 38089064; 38088964; 38088868; 38088768; 38088668; 38088568; 38088468; 38088372; 38088272; 38088172;
  38088072; 38087976; 38087876; 38087776; 38087676; 38087576; 38087480; 38087380; 38087280; 38087180; 38087080; 38086984; 38086884; 38086784; 38086684; 38086584; 38086484; 38086388; 38086288; 38086188;
  38086088; 38085988; 38085892; 38085792; 38085692; 38085592; 38085492; 38085392; 38085296; 38085196; 38085096; 38084996; 38084896; 38084796; 38084700; 38084600; 38084500; 38084400; 38084300; 38084200;
  38084104; 38084004; 38083904; 38083804; 38083704; 38083604; 38083504; 38083408; 38083308; 38083208; 38083108; 38083008; 38082908; 38082808; 38082708; 38082612; 38082512; 38082412; 38082312; 38082212;
  38082112; 38082012; 38081912; 38081816; 38081716; 38081616; 38081516; 38081416; 38081316; 38081216; 38081116; 38081016; 38080920; 38080820; 38080720; 38080620; 38080520; 38080420; 38080320; 38080220;
  38080120; 38080020; 38079924; 38079824; 38079724; 38079624; 38079524; 38079424; 38079324; 38079224; 38079124; 38079024; 38078924; 38078824; 38078728; 38078628; 38078528; 38078428; 38078328; 38078228;
  38078128; 38078028; 38077928; 38077828; 38077728; 38077628; 38077528; 38077428; 38077328; 38077228; 38077128; 38077032; 38076932; 38076832; 38076732; 38076632; 38076532; 38076432; 38076332; 38076232;
  38076132; 38076032; 38075932; 38075832; 38075732; 38075632; 38075532; 38075432; 38075332; 38075232; 38075132; 38075032; 38074932; 38074832; 38074732; 38074632; 38074532; 38074432; 38074332; 38074232;
  38074132; 38074032; 38073932; 38073832; 38073732; 38073632; 38073532; 38073432; 38073332; 38073232; 38073132; 38073032; 38072932; 38072832; 38072732; 38072632; 38072532; 38072432; 38072332; 38072232;
  38072132; 38072032; 38071932; 38071832; 38071732; 38071632; 38071532; 38071432; 38071332; 38071232; 38071132; 38071032; 38070932; 38070832; 38070732; 38070632; 38070528; 38070428; 38070328; 38070228;
  38070128; 38070028; 38069928; 38069828; 38069728; 38069628; 38069528; 38069428; 38069328; 38069228; 38069128; 38069028; 38068928; 38068824; 38068724; 38068624; 38068524; 38068424; 38068324; 38068224;
  38068124; 38068024; 38067924; 38067824; 38067724; 38067620; 38067520; 38067420; 38067320; 38067220; 38067120; 38067020; 38066920; 38066820; 38066720; 38066616; 38066516; 38066416; 38066316; 38066216;
  38066116; 38066016; 38065916; 38065816; 38065712; 38065612; 38065512; 38065412; 38065312; 38065212; 38065112; 38065012; 38064908; 38064808; 38064708; 38064608; 38064508; 38064408; 38064308; 38064204;
  38064104; 38064004; 38063904; 38063804; 38063704; 38063604; 38063500; 38063400; 38063300; 38063200; 38063100; 38063000; 38062900; 38062796; 38062696; 38062596; 38062496; 38062396; 38062296; 38062192;
  38062092; 38061992; 38061892; 38061792; 38061688; 38061588; 38061488; 38061388; 38061288; 38061188; 38061084; 38060984; 38060884; 38060784; 38060684; 38060580; 38060480; 38060380; 38060280; 38060180;
  38060076; 38059976; 38059876; 38059776; 38059676; 38059572; 38059472; 38059372; 38059272; 38059172; 38059068; 38058968; 38058868; 38058768; 38058664; 38058564; 38058464; 38058364; 38058264; 38058160;
  38058060; 38057960; 38057860; 38057756; 38057656; 38057556; 38057456; 38057352; 38057252; 38057152; 38057052; 38056948; 38056848; 38056748; 38056648; 38056544; 38056444; 38056344; 38056244; 38056140;
  38056040; 38055940; 38055840; 38055736; 38055636; 38055536; 38055432; 38055332; 38055232; 38055132; 38055028; 38054928; 38054828; 38054728; 38054624; 38054524; 38054424; 38054320; 38054220; 38054120;
  38054020; 38053916; 38053816; 38053716; 38053612; 38053512; 38053412; 38053308; 38053208; 38053108; 38053008; 38052904; 38052804; 38052704; 38052600; 38052500; 38052400; 38052296; 38052196; 38052096;
  38051992; 38051892; 38051792; 38051688; 38051588; 38051488; 38051384; 38051284; 38051184; 38051080; 38050980; 38050880; 38050776; 38050676; 38050576; 38050472; 38050372; 38050272; 38050168; 38050068;
  38049968; 38049864; 38049764; 38049664; 38049560; 38049460; 38049356; 38049256; 38049156; 38049052; 38048952; 38048852; 38048748; 38048648; 38048544; 38048444; 38048344; 38048240; 38048140; 38048040;
  38047936; 38047836; 38047732; 38047632; 38047532; 38047428; 38047328; 38047224; 38047124; 38047024; 38046920; 38046820; 38046716; 38046616; 38046516; 38046412; 38046312; 38046208; 38046108; 38046008;
  38045904; 38045804; 38045700; 38045600; 38045500; 38045396; 38045296; 38045192; 38045092; 38044988; 38044888; 38044788; 38044684; 38044584; 38044480; 38044380; 38044276; 38044176; 38044076; 38043972;
  38043872; 38043768; 38043668; 38043564; 38043464; 38043360; 38043260; 38043156; 38043056; 38042956; 38042852; 38042752; 38042648; 38042548; 38042444; 38042344; 38042240; 38042140; 38042036; 38041936;
  38041832; 38041732; 38041628; 38041528; 38041428; 38041324; 38041224; 38041120; 38041020; 38040916; 38040816; 38040712; 38040612; 38040508; 38040408; 38040304; 38040204; 38040100; 38040000; 38039896;
  38039796; 38039692; 38039592; 38039488; 38039388; 38039284; 38039184; 38039080; 38038980; 38038876; 38038772; 38038672; 38038568; 38038468; 38038364; 38038264; 38038160; 38038060; 38037956; 38037856;
  38037752; 38037652; 38037548; 38037448; 38037344; 38037240; 38037140; 38037036; 38036936; 38036832; 38036732; 38036628; 38036528; 38036424; 38036324; 38036220; 38036116; 38036016; 38035912; 38035812;
  38035708; 38035608; 38035504; 38035400; 38035300; 38035196; 38035096; 38034992; 38034892; 38034788; 38034684; 38034584; 38034480; 38034380; 38034276; 38034172; 38034072; 38033968; 38033868; 38033764;
  38033660; 38033560; 38033456; 38033356; 38033252; 38033148; 38033048; 38032944; 38032844; 38032740; 38032636; 38032536; 38032432; 38032332; 38032228; 38032124; 38032024; 38031920; 38031816; 38031716;
  38031612; 38031512; 38031408; 38031304; 38031204; 38031100; 38030996; 38030896; 38030792; 38030688; 38030588; 38030484; 38030384; 38030280; 38030176; 38030076; 38029972; 38029868; 38029768; 38029664;
  38029560; 38029460; 38029356; 38029252; 38029152; 38029048; 38028944; 38028844; 38028740; 38028636; 38028536; 38028432; 38028328; 38028228; 38028124; 38028020; 38027920; 38027816; 38027712; 38027612;
  38027508; 38027404; 38027300; 38027200; 38027096; 38026992; 38026892; 38026788; 38026684; 38026584; 38026480; 38026376; 38026272; 38026172; 38026068; 38025964; 38025864; 38025760; 38025656; 38025552;
  38025452; 38025348; 38025244; 38025144; 38025040; 38024936; 38024832; 38024732; 38024628; 38024524; 38024420; 38024320; 38024216; 38024112; 38024008; 38023908; 38023804; 38023700; 38023596; 38023496;
  38023392; 38023288; 38023184; 38023084; 38022980; 38022876; 38022772; 38022672; 38022568; 38022464; 38022360; 38022260; 38022156; 38022052; 38021948; 38021844; 38021744; 38021640; 38021536; 38021432;
  38021332; 38021228; 38021124; 38021020; 38020916; 38020816; 38020712; 38020608; 38020504; 38020400; 38020300; 38020196; 38020092; 38019988; 38019884; 38019784; 38019680; 38019576; 38019472; 38019368;
  38019268; 38019164; 38019060; 38018956; 38018852; 38018748; 38018648; 38018544; 38018440; 38018336; 38018232; 38018128; 38018028; 38017924; 38017820; 38017716; 38017612; 38017508; 38017408; 38017304;
  38017200; 38017096; 38016992; 38016888; 38016788; 38016684; 38016580; 38016476; 38016372; 38016268; 38016164; 38016064; 38015960; 38015856; 38015752; 38015648; 38015544; 38015440; 38015336; 38015236;
  38015132; 38015028; 38014924; 38014820; 38014716; 38014612; 38014508; 38014404; 38014304; 38014200; 38014096; 38013992; 38013888; 38013784; 38013680; 38013576; 38013472; 38013372; 38013268; 38013164;
  38013060; 38012956; 38012852; 38012748; 38012644; 38012540; 38012436; 38012332; 38012228; 38012128; 38012024; 38011920; 38011816; 38011712; 38011608; 38011504; 38011400; 38011296; 38011192; 38011088;
  38010984; 38010880; 38010776; 38010672; 38010568; 38010468; 38010364; 38010260; 38010156; 38010052; 38009948; 38009844; 38009740; 38009636; 38009532; 38009428; 38009324; 38009220; 38009116; 38009012;
  38008908; 38008804; 38008700; 38008596; 38008492; 38008388; 38008284; 38008180; 38008076; 38007972; 38007868; 38007764; 38007660; 38007556; 38007452; 38007348; 38007244; 38007140; 38007036; 38006932;
  38006828; 38006724; 38006620; 38006516; 38006412; 38006308; 38006204; 38006100; 38005996; 38005892; 38005788; 38005684; 38005580; 38005476; 38005372; 38005268; 38005164; 38005060; 38004956; 38004852;
  38004748; 38004644; 38004540; 38004436; 38004332; 38004228; 38004124; 38004020; 38003916; 38003812; 38003704; 38003600; 38003496; 38003392; 38003288; 38003184; 38003080; 38002976; 38002872; 38002768;
  38002664; 38002560; 38002456; 38002352; 38002248; 38002140; 38002036; 38001932; 38001828; 38001724; 38001620; 38001516; 38001412; 38001308; 38001204; 38001100; 38000996; 38000888; 38000784; 38000680;
  38000576; 38000472; 38000368; 38000264; 38000160; 38000056; 37999952; 37999844; 37999740; 37999636; 37999532; 37999428; 37999324; 37999220; 37999116; 37999008; 37998904; 37998800; 37998696; 37998592;
  37998488; 37998384; 37998280; 37998172; 37998068; 37997964; 37997860; 37997756; 37997652; 37997548; 37997440; 37997336; 37997232; 37997128; 37997024; 37996920; 37996812; 37996708; 37996604; 37996500;
  37996396; 37996292; 37996184; 37996080; 37995976; 37995872; 37995768; 37995664; 37995556; 37995452; 37995348; 37995244; 37995140; 37995036; 37994928; 37994824; 37994720; 37994616; 37994512; 37994404].
Definition values_01 : list Z := [
  37994300; 37994196; 37994092; 37993988; 37993880; 37993776; 37993672; 37993568; 37993464; 37993356; 37993252; 37993148; 37993044; 37992936; 37992832; 37992728; 37992624; 37992520; 37992412; 37992308;
  37992204; 37992100; 37991992; 37991888; 37991784; 37991680; 37991576; 37991468; 37991364; 37991260; 37991156; 37991048; 37990944; 37990840; 37990736; 37990628; 37990524; 37990420; 37990316; 37990208;
  37990104; 37990000; 37989892; 37989788; 37989684; 37989580; 37989472; 37989368; 37989264; 37989160; 37989052; 37988948; 37988844; 37988736; 37988632; 37988528; 37988424; 37988316; 37988212; 37988108;
  37988000; 37987896; 37987792; 37987688; 37987580; 37987476; 37987372; 37987264; 37987160; 37987056; 37986948; 37986844; 37986740; 37986632; 37986528; 37986424; 37986320; 37986212; 37986108; 37986004;
  37985896; 37985792; 37985688; 37985580; 37985476; 37985372; 37985264; 37985160; 37985056; 37984948; 37984844; 37984740; 37984632; 37984528; 37984420; 37984316; 37984212; 37984104; 37984000; 37983896;
  37983788; 37983684; 37983580; 37983472; 37983368; 37983264; 37983156; 37983052; 37982944; 37982840; 37982736; 37982628; 37982524; 37982420; 37982312; 37982208; 37982100; 37981996; 37981892; 37981784;
  37981680; 37981572; 37981468; 37981364; 37981256; 37981152; 37981044; 37980940; 37980836; 37980728; 37980624; 37980516; 37980412; 37980308; 37980200; 37980096; 37979988; 37979884; 37979776; 37979672;
  37979568; 37979460; 37979356; 37979248; 37979144; 37979036; 37978932; 37978828; 37978720; 37978616; 37978508; 37978404; 37978296; 37978192; 37978088; 37977980; 37977876; 37977768; 37977664; 37977556;
  37977452; 37977344; 37977240; 37977132; 37977028; 37976920; 37976816; 37976712; 37976604; 37976500; 37976392; 37976288; 37976180; 37976076; 37975968; 37975864; 37975756; 37975652; 37975544; 37975440;
  37975332; 37975228; 37975120; 37975016; 37974908; 37974804; 37974696; 37974592; 37974484; 37974380; 37974272; 37974168; 37974060; 37973956; 37973848; 37973744; 37973636; 37973532; 37973424; 37973320;
  37973212; 37973108; 37973000; 37972896; 37972788; 37972684; 37972576; 37972468; 37972364; 37972256; 37972152; 37972044; 37971940; 37971832; 37971728; 37971620; 37971516; 37971408; 37971300; 37971196;
  37971088; 37970984; 37970876; 37970772; 37970664; 37970560; 37970452; 37970344; 37970240; 37970132; 37970028; 37969920; 37969816; 37969708; 37969600; 37969496; 37969388; 37969284; 37969176; 37969068;
  37968964; 37968856; 37968752; 37968644; 37968536; 37968432; 37968324; 37968220; 37968112; 37968004; 37967900; 37967792; 37967688; 37967580; 37967472; 37967368; 37967260; 37967156; 37967048; 37966940;
  37966836; 37966728; 37966620; 37966516; 37966408; 37966304; 37966196; 37966088; 37965984; 37965876; 37965768; 37965664; 37965556; 37965448; 37965344; 37965236; 37965132; 37965024; 37964916; 37964812;
  37964704; 37964596; 37964492; 37964384; 37964276; 37964172; 37964064; 37963956; 37963852; 37963744; 37963636; 37963532; 37963424; 37963316; 37963212; 37963104; 37962996; 37962888; 37962784; 37962676;
  37962568; 37962464; 37962356; 37962248; 37962144; 37962036; 37961928; 37961824; 37961716; 37961608; 37961500; 37961396; 37961288; 37961180; 37961076; 37960968; 37960860; 37960752; 37960648; 37960540;
  37960432; 37960328; 37960220; 37960112; 37960004; 37959900; 37959792; 37959684; 37959576; 37959472; 37959364; 37959256; 37959148; 37959044; 37958936; 37958828; 37958720; 37958616; 37958508; 37958400;
  37958292; 37958188; 37958080; 37957972; 37957864; 37957760; 37957652; 37957544; 37957436; 37957332; 37957224; 37957116; 37957008; 37956900; 37956796; 37956688; 37956580; 37956472; 37956368; 37956260;
  37956152; 37956044; 37955936; 37955832; 37955724; 37955616; 37955508; 37955400; 37955296; 37955188; 37955080; 37954972; 37954864; 37954760; 37954652; 37954544; 37954436; 37954328; 37954220; 37954116;
  37954008; 37953900; 37953792; 37953684; 37953576; 37953472; 37953364; 37953256; 37953148; 37953040; 37952932; 37952828; 37952720; 37952612; 37952504; 37952396; 37952288; 37952184; 37952076; 37951968;
  37951860; 37951752; 37951644; 37951536; 37951432; 37951324; 37951216; 37951108; 37951000; 37950892; 37950784; 37950676; 37950572; 37950464; 37950356; 37950248; 37950140; 37950032; 37949924; 37949816;
  37949708; 37949604; 37949496; 37949388; 37949280; 37949172; 37949064; 37948956; 37948848; 37948740; 37948632; 37948528; 37948420; 37948312; 37948204; 37948096; 37947988; 37947880; 37947772; 37947664;
  37947556; 37947448; 37947340; 37947232; 37947128; 37947020; 37946912; 37946804; 37946696; 37946588; 37946480; 37946372; 37946264; 37946156; 37946048; 37945940; 37945832; 37945724; 37945616; 37945508;
  37945400; 37945292; 37945184; 37945076; 37944972; 37944864; 37944756; 37944648; 37944540; 37944432; 37944324; 37944216; 37944108; 37944000; 37943892; 37943784; 37943676; 37943568; 37943460; 37943352;
  37943244; 37943136; 37943028; 37942920; 37942812; 37942704; 37942596; 37942488; 37942380; 37942272; 37942164; 37942056; 37941948; 37941840; 37941732; 37941624; 37941516; 37941408; 37941300; 37941192;
  37941084; 37940976; 37940868; 37940756; 37940648; 37940540; 37940432; 37940324; 37940216; 37940108; 37940000; 37939892; 37939784; 37939676; 37939568; 37939460; 37939352; 37939244; 37939136; 37939028;
  37938920; 37938812; 37938704; 37938592; 37938484; 37938376; 37938268; 37938160; 37938052; 37937944; 37937836; 37937728; 37937620; 37937512; 37937404; 37937292; 37937184; 37937076; 37936968; 37936860;
  37936752; 37936644; 37936536; 37936428; 37936320; 37936212; 37936100; 37935992; 37935884; 37935776; 37935668; 37935560; 37935452; 37935344; 37935232; 37935124; 37935016; 37934908; 37934800; 37934692;
  37934584; 37934476; 37934364; 37934256; 37934148; 37934040; 37933932; 37933824; 37933716; 37933604; 37933496; 37933388; 37933280; 37933172; 37933064; 37932956; 37932844; 37932736; 37932628; 37932520;
  37932412; 37932304; 37932192; 37932084; 37931976; 37931868; 37931760; 37931648; 37931540; 37931432; 37931324; 37931216; 37931108; 37930996; 37930888; 37930780; 37930672; 37930564; 37930452; 37930344;
  37930236; 37930128; 37930020; 37929908; 37929800; 37929692; 37929584; 37929476; 37929364; 37929256; 37929148; 37929040; 37928928; 37928820; 37928712; 37928604; 37928496; 37928384; 37928276; 37928168;
  37928060; 37927948; 37927840; 37927732; 37927624; 37927512; 37927404; 37927296; 37927188; 37927076; 37926968; 37926860; 37926752; 37926640; 37926532; 37926424; 37926316; 37926204; 37926096; 37925988;
  37925880; 37925768; 37925660; 37925552; 37925440; 37925332; 37925224; 37925116; 37925004; 37924896; 37924788; 37924676; 37924568; 37924460; 37924352; 37924240; 37924132; 37924024; 37923912; 37923804;
  37923696; 37923584; 37923476; 37923368; 37923260; 37923148; 37923040; 37922932; 37922820; 37922712; 37922604; 37922492; 37922384; 37922276; 37922164; 37922056; 37921948; 37921836; 37921728; 37921620;
  37921508; 37921400; 37921292; 37921180; 37921072; 37920964; 37920852; 37920744; 37920632; 37920524; 37920416; 37920304; 37920196; 37920088; 37919976; 37919868; 37919760; 37919648; 37919540; 37919428;
  37919320; 37919212; 37919100; 37918992; 37918884; 37918772; 37918664; 37918552; 37918444; 37918336; 37918224; 37918116; 37918004; 37917896; 37917788; 37917676; 37917568; 37917456; 37917348; 37917240;
  37917128; 37917020; 37916908; 37916800; 37916692; 37916580; 37916472; 37916360; 37916252; 37916140; 37916032; 37915924; 37915812; 37915704; 37915592; 37915484; 37915372; 37915264; 37915152; 37915044;
  37914936; 37914824; 37914716; 37914604; 37914496; 37914384; 37914276; 37914164; 37914056; 37913948; 37913836; 37913728; 37913616; 37913508; 37913396; 37913288; 37913176; 37913068; 37912956; 37912848;
  37912736; 37912628; 37912516; 37912408; 37912296; 37912188; 37912076; 37911968; 37911856; 37911748; 37911636; 37911528; 37911416; 37911308; 37911196; 37911088; 37910976; 37910868; 37910756; 37910648;
  37910536; 37910428; 37910316; 37910208; 37910096; 37909988; 37909876; 37909768; 37909656; 37909548; 37909436; 37909324; 37909216; 37909104; 37908996; 37908884; 37908776; 37908664; 37908556; 37908444;
  37908336; 37908224; 37908112; 37908004; 37907892; 37907784; 37907672; 37907564; 37907452; 37907344; 37907232; 37907120; 37907012; 37906900; 37906792; 37906680; 37906568; 37906460; 37906348; 37906240;
  37906128; 37906020; 37905908; 37905796; 37905688; 37905576; 37905468; 37905356; 37905244; 37905136; 37905024; 37904916; 37904804; 37904692; 37904584; 37904472; 37904360; 37904252; 37904140; 37904032;
  37903920; 37903808; 37903700; 37903588; 37903476; 37903368; 37903256; 37903148; 37903036; 37902924; 37902816; 37902704; 37902592; 37902484; 37902372; 37902260; 37902152; 37902040; 37901928; 37901820;
  37901708; 37901596; 37901488; 37901376; 37901264; 37901156; 37901044; 37900932; 37900824; 37900712; 37900600; 37900492; 37900380; 37900268; 37900160; 37900048; 37899936; 37899828; 37899716; 37899604;
  37899496; 37899384; 37899272; 37899160; 37899052; 37898940; 37898828; 37898720; 37898608; 37898496; 37898384; 37898276; 37898164; 37898052; 37897944; 37897832; 37897720; 37897608; 37897500; 37897388;
  37897276; 37897164; 37897056; 37896944; 37896832; 37896724; 37896612; 37896500; 37896388; 37896280; 37896168; 37896056; 37895944; 37895836; 37895724; 37895612; 37895500; 37895392; 37895280; 37895168;
  37895056; 37894944; 37894836; 37894724; 37894612; 37894500; 37894392; 37894280; 37894168; 37894056; 37893944; 37893836; 37893724; 37893612; 37893500; 37893388; 37893280; 37893168; 37893056; 37892944;
  37892832; 37892724; 37892612; 37892500; 37892388; 37892276; 37892168; 37892056; 37891944; 37891832; 37891720; 37891608; 37891500; 37891388; 37891276; 37891164; 37891052; 37890940; 37890832; 37890720;
  37890608; 37890496; 37890384; 37890272; 37890164; 37890052; 37889940; 37889828; 37889716; 37889604; 37889492; 37889384; 37889272; 37889160; 37889048; 37888936; 37888824; 37888712; 37888604; 37888492;
  37888380; 37888268; 37888156; 37888044; 37887932; 37887820; 37887708; 37887600; 37887488; 37887376; 37887264; 37887152; 37887040; 37886928; 37886816; 37886704; 37886592; 37886484; 37886372; 37886260].
Definition values_02 : list Z := [
  37886148; 37886036; 37885924; 37885812; 37885700; 37885588; 37885476; 37885364; 37885252; 37885144; 37885032; 37884920; 37884808; 37884696; 37884584; 37884472; 37884360; 37884248; 37884136; 37884024;
  37883912; 37883800; 37883688; 37883576; 37883464; 37883352; 37883240; 37883128; 37883020; 37882908; 37882796; 37882684; 37882572; 37882460; 37882348; 37882236; 37882124; 37882012; 37881900; 37881788;
  37881676; 37881564; 37881452; 37881340; 37881228; 37881116; 37881004; 37880892; 37880780; 37880668; 37880556; 37880444; 37880332; 37880220; 37880108; 37879996; 37879884; 37879772; 37879660; 37879548;
  37879436; 37879324; 37879212; 37879100; 37878988; 37878876; 37878760; 37878648; 37878536; 37878424; 37878312; 37878200; 37878088; 37877976; 37877864; 37877752; 37877640; 37877528; 37877416; 37877304;
  37877192; 37877080; 37876968; 37876856; 37876744; 37876628; 37876516; 37876404; 37876292; 37876180; 37876068; 37875956; 37875844; 37875732; 37875620; 37875508; 37875396; 37875280; 37875168; 37875056;
  37874944; 37874832; 37874720; 37874608; 37874496; 37874384; 37874272; 37874156; 37874044; 37873932; 37873820; 37873708; 37873596; 37873484; 37873372; 37873260; 37873144; 37873032; 37872920; 37872808;
  37872696; 37872584; 37872472; 37872356; 37872244; 37872132; 37872020; 37871908; 37871796; 37871684; 37871568; 37871456; 37871344; 37871232; 37871120; 37871008; 37870892; 37870780; 37870668; 37870556;
  37870444; 37870332; 37870216; 37870104; 37869992; 37869880; 37869768; 37869656; 37869540; 37869428; 37869316; 37869204; 37869092; 37868976; 37868864; 37868752; 37868640; 37868528; 37868412; 37868300;
  37868188; 37868076; 37867964; 37867848; 37867736; 37867624; 37867512; 37867396; 37867284; 37867172; 37867060; 37866948; 37866832; 37866720; 37866608; 37866496; 37866380; 37866268; 37866156; 37866044;
  37865928; 37865816; 37865704; 37865592; 37865476; 37865364; 37865252; 37865140; 37865024; 37864912; 37864800; 37864688; 37864572; 37864460; 37864348; 37864232; 37864120; 37864008; 37863896; 37863780;
  37863668; 37863556; 37863440; 37863328; 37863216; 37863104; 37862988; 37862876; 37862764; 37862648; 37862536; 37862424; 37862308; 37862196; 37862084; 37861972; 37861856; 37861744; 37861632; 37861516;
  37861404; 37861292; 37861176; 37861064; 37860952; 37860836; 37860724; 37860612; 37860496; 37860384; 37860272; 37860156; 37860044; 37859932; 37859816; 37859704; 37859592; 37859476; 37859364; 37859248;
  37859136; 37859024; 37858908; 37858796; 37858684; 37858568; 37858456; 37858344; 37858228; 37858116; 37858000; 37857888; 37857776; 37857660; 37857548; 37857436; 37857320; 37857208; 37857092; 37856980;
  37856868; 37856752; 37856640; 37856524; 37856412; 37856300; 37856184; 37856072; 37855956; 37855844; 37855728; 37855616; 37855504; 37855388; 37855276; 37855160; 37855048; 37854932; 37854820; 37854708;
  37854592; 37854480; 37854364; 37854252; 37854136; 37854024; 37853912; 37853796; 37853684; 37853568; 37853456; 37853340; 37853228; 37853112; 37853000; 37852884; 37852772; 37852660; 37852544; 37852432;
  37852316; 37852204; 37852088; 37851976; 37851860; 37851748; 37851632; 37851520; 37851404; 37851292; 37851176; 37851064; 37850948; 37850836; 37850720; 37850608; 37850492; 37850380; 37850264; 37850152;
  37850036; 37849924; 37849808; 37849696; 37849580; 37849468; 37849352; 37849240; 37849124; 37849012; 37848896; 37848784; 37848668; 37848552; 37848440; 37848324; 37848212; 37848096; 37847984; 37847868;
  37847756; 37847640; 37847528; 37847412; 37847296; 37847184; 37847068; 37846956; 37846840; 37846728; 37846612; 37846496; 37846384; 37846268; 37846156; 37846040; 37845928; 37845812; 37845696; 37845584;
  37845468; 37845356; 37845240; 37845124; 37845012; 37844896; 37844784; 37844668; 37844552; 37844440; 37844324; 37844212; 37844096; 37843980; 37843868; 37843752; 37843640; 37843524; 37843408; 37843296;
  37843180; 37843064; 37842952; 37842836; 37842724; 37842608; 37842492; 37842380; 37842264; 37842148; 37842036; 37841920; 37841804; 37841692; 37841576; 37841460; 37841348; 37841232; 37841120; 37841004;
  37840888; 37840776; 37840660; 37840544; 37840432; 37840316; 37840200; 37840084; 37839972; 37839856; 37839740; 37839628; 37839512; 37839396; 37839284; 37839168; 37839052; 37838940; 37838824; 37838708;
  37838592; 37838480; 37838364; 37838248; 37838136; 37838020; 37837904; 37837792; 37837676; 37837560; 37837444; 37837332; 37837216; 37837100; 37836984; 37836872; 37836756; 37836640; 37836528; 37836412;
  37836296; 37836180; 37836068; 37835952; 37835836; 37835720; 37835608; 37835492; 37835376; 37835260; 37835148; 37835032; 37834916; 37834800; 37834684; 37834572; 37834456; 37834340; 37834224; 37834112;
  37833996; 37833880; 37833764; 37833648; 37833536; 37833420; 37833304; 37833188; 37833072; 37832960; 37832844; 37832728; 37832612; 37832496; 37832384; 37832268; 37832152; 37832036; 37831920; 37831808;
  37831692; 37831576; 37831460; 37831344; 37831228; 37831116; 37831000; 37830884; 37830768; 37830652; 37830536; 37830424; 37830308; 37830192; 37830076; 37829960; 37829844; 37829732; 37829616; 37829500;
  37829384; 37829268; 37829152; 37829036; 37828924; 37828808; 37828692; 37828576; 37828460; 37828344; 37828228; 37828112; 37828000; 37827884; 37827768; 37827652; 37827536; 37827420; 37827304; 37827188;
  37827072; 37826960; 37826844; 37826728; 37826612; 37826496; 37826380; 37826264; 37826148; 37826032; 37825916; 37825800; 37825688; 37825572; 37825456; 37825340; 37825224; 37825108; 37824992; 37824876;
  37824760; 37824644; 37824528; 37824412; 37824296; 37824180; 37824064; 37823948; 37823836; 37823720; 37823604; 37823488; 37823372; 37823256; 37823140; 37823024; 37822908; 37822792; 37822676; 37822560;
  37822444; 37822328; 37822212; 37822096; 37821980; 37821864; 37821748; 37821632; 37821516; 37821400; 37821284; 37821168; 37821052; 37820936; 37820820; 37820704; 37820588; 37820472; 37820356; 37820240;
  37820124; 37820008; 37819892; 37819776; 37819660; 37819544; 37819428; 37819312; 37819196; 37819080; 37818964; 37818848; 37818732; 37818616; 37818500; 37818384; 37818268; 37818148; 37818032; 37817916;
  37817800; 37817684; 37817568; 37817452; 37817336; 37817220; 37817104; 37816988; 37816872; 37816756; 37816640; 37816524; 37816408; 37816288; 37816172; 37816056; 37815940; 37815824; 37815708; 37815592;
  37815476; 37815360; 37815244; 37815128; 37815008; 37814892; 37814776; 37814660; 37814544; 37814428; 37814312; 37814196; 37814080; 37813960; 37813844; 37813728; 37813612; 37813496; 37813380; 37813264;
  37813148; 37813028; 37812912; 37812796; 37812680; 37812564; 37812448; 37812332; 37812212; 37812096; 37811980; 37811864; 37811748; 37811632; 37811512; 37811396; 37811280; 37811164; 37811048; 37810932;
  37810812; 37810696; 37810580; 37810464; 37810348; 37810232; 37810112; 37809996; 37809880; 37809764; 37809648; 37809528; 37809412; 37809296; 37809180; 37809064; 37808944; 37808828; 37808712; 37808596;
  37808480; 37808360; 37808244; 37808128; 37808012; 37807892; 37807776; 37807660; 37807544; 37807428; 37807308; 37807192; 37807076; 37806960; 37806840; 37806724; 37806608; 37806492; 37806372; 37806256;
  37806140; 37806024; 37805904; 37805788; 37805672; 37805556; 37805436; 37805320; 37805204; 37805088; 37804968; 37804852; 37804736; 37804616; 37804500; 37804384; 37804268; 37804148; 37804032; 37803916;
  37803796; 37803680; 37803564; 37803444; 37803328; 37803212; 37803096; 37802976; 37802860; 37802744; 37802624; 37802508; 37802392; 37802272; 37802156; 37802040; 37801920; 37801804; 37801688; 37801568;
  37801452; 37801336; 37801216; 37801100; 37800984; 37800864; 37800748; 37800632; 37800512; 37800396; 37800280; 37800160; 37800044; 37799928; 37799808; 37799692; 37799572; 37799456; 37799340; 37799220;
  37799104; 37798988; 37798868; 37798752; 37798632; 37798516; 37798400; 37798280; 37798164; 37798048; 37797928; 37797812; 37797692; 37797576; 37797460; 37797340; 37797224; 37797104; 37796988; 37796872;
  37796752; 37796636; 37796516; 37796400; 37796280; 37796164; 37796048; 37795928; 37795812; 37795692; 37795576; 37795456; 37795340; 37795224; 37795104; 37794988; 37794868; 37794752; 37794632; 37794516;
  37794396; 37794280; 37794160; 37794044; 37793928; 37793808; 37793692; 37793572; 37793456; 37793336; 37793220; 37793100; 37792984; 37792864; 37792748; 37792628; 37792512; 37792392; 37792276; 37792156;
  37792040; 37791920; 37791804; 37791684; 37791568; 37791448; 37791332; 37791212; 37791096; 37790976; 37790860; 37790740; 37790624; 37790504; 37790388; 37790268; 37790152; 37790032; 37789916; 37789796;
  37789680; 37789560; 37789440; 37789324; 37789204; 37789088; 37788968; 37788852; 37788732; 37788616; 37788496; 37788376; 37788260; 37788140; 37788024; 37787904; 37787788; 37787668; 37787552; 37787432;
  37787312; 37787196; 37787076; 37786960; 37786840; 37786720; 37786604; 37786484; 37786368; 37786248; 37786128; 37786012; 37785892; 37785776; 37785656; 37785536; 37785420; 37785300; 37785184; 37785064;
  37784944; 37784828; 37784708; 37784592; 37784472; 37784352; 37784236; 37784116; 37783996; 37783880; 37783760; 37783640; 37783524; 37783404; 37783288; 37783168; 37783048; 37782932; 37782812; 37782692;
  37782576; 37782456; 37782336; 37782220; 37782100; 37781980; 37781864; 37781744; 37781624; 37781508; 37781388; 37781268; 37781152; 37781032; 37780912; 37780792; 37780676; 37780556; 37780436; 37780320;
  37780200; 37780080; 37779964; 37779844; 37779724; 37779604; 37779488; 37779368; 37779248; 37779132; 37779012; 37778892; 37778772; 37778656; 37778536; 37778416; 37778296; 37778180; 37778060; 37777940;
  37777824; 37777704; 37777584; 37777464; 37777348; 37777228; 37777108; 37776988; 37776872; 37776752; 37776632; 37776512; 37776392; 37776276; 37776156; 37776036; 37775916; 37775800; 37775680; 37775560;
  37775440; 37775320; 37775204; 37775084; 37774964; 37774844; 37774728; 37774608; 37774488; 37774368; 37774248; 37774132; 37774012; 37773892; 37773772; 37773652; 37773532; 37773416; 37773296; 37773176;
  37773056; 37772936; 37772816; 37772700; 37772580; 37772460; 37772340; 37772220; 37772100; 37771984; 37771864; 37771744; 37771624; 37771504; 37771384; 37771268; 37771148; 37771028; 37770908; 37770788].
Definition values_03 : list Z := [
  37770668; 37770548; 37770428; 37770312; 37770192; 37770072; 37769952; 37769832; 37769712; 37769592; 37769472; 37769356; 37769236; 37769116; 37768996; 37768876; 37768756; 37768636; 37768516; 37768396;
  37768276; 37768160; 37768040; 37767920; 37767800; 37767680; 37767560; 37767440; 37767320; 37767200; 37767080; 37766960; 37766840; 37766720; 37766604; 37766484; 37766364; 37766244; 37766124; 37766004;
  37765884; 37765764; 37765644; 37765524; 37765404; 37765284; 37765164; 37765044; 37764924; 37764804; 37764684; 37764564; 37764444; 37764324; 37764204; 37764084; 37763964; 37763844; 37763724; 37763604;
  37763484; 37763364; 37763244; 37763124; 37763004; 37762884; 37762764; 37762644; 37762524; 37762404; 37762284; 37762164; 37762044; 37761924; 37761804; 37761684; 37761564; 37761444; 37761324; 37761204;
  37761084; 37760964; 37760844; 37760724; 37760604; 37760484; 37760364; 37760244; 37760124; 37760004; 37759884; 37759764; 37759644; 37759520; 37759400; 37759280; 37759160; 37759040; 37758920; 37758800;
  37758680; 37758560; 37758440; 37758320; 37758200; 37758080; 37757956; 37757836; 37757716; 37757596; 37757476; 37757356; 37757236; 37757116; 37756996; 37756876; 37756752; 37756632; 37756512; 37756392;
  37756272; 37756152; 37756032; 37755912; 37755788; 37755668; 37755548; 37755428; 37755308; 37755188; 37755068; 37754948; 37754824; 37754704; 37754584; 37754464; 37754344; 37754224; 37754100; 37753980;
  37753860; 37753740; 37753620; 37753500; 37753380; 37753256; 37753136; 37753016; 37752896; 37752776; 37752652; 37752532; 37752412; 37752292; 37752172; 37752048; 37751928; 37751808; 37751688; 37751568;
  37751444; 37751324; 37751204; 37751084; 37750964; 37750840; 37750720; 37750600; 37750480; 37750360; 37750236; 37750116; 37749996; 37749876; 37749752; 37749632; 37749512; 37749392; 37749268; 37749148;
  37749028; 37748908; 37748784; 37748664; 37748544; 37748424; 37748300; 37748180; 37748060; 37747940; 37747816; 37747696; 37747576; 37747456; 37747332; 37747212; 37747092; 37746968; 37746848; 37746728;
  37746608; 37746484; 37746364; 37746244; 37746120; 37746000; 37745880; 37745756; 37745636; 37745516; 37745396; 37745272; 37745152; 37745032; 37744908; 37744788; 37744668; 37744544; 37744424; 37744304;
  37744180; 37744060; 37743940; 37743816; 37743696; 37743576; 37743452; 37743332; 37743212; 37743088; 37742968; 37742848; 37742724; 37742604; 37742480; 37742360; 37742240; 37742116; 37741996; 37741876;
  37741752; 37741632; 37741508; 37741388; 37741268; 37741144; 37741024; 37740904; 37740780; 37740660; 37740536; 37740416; 37740296; 37740172; 37740052; 37739928; 37739808; 37739688; 37739564; 37739444;
  37739320; 37739200; 37739076; 37738956; 37738836; 37738712; 37738592; 37738468; 37738348; 37738224; 37738104; 37737984; 37737860; 37737740; 37737616; 37737496; 37737372; 37737252; 37737128; 37737008;
  37736884; 37736764; 37736640; 37736520; 37736400; 37736276; 37736156; 37736032; 37735912; 37735788; 37735668; 37735544; 37735424; 37735300; 37735180; 37735056; 37734936; 37734812; 37734692; 37734568;
  37734448; 37734324; 37734204; 37734080; 37733960; 37733836; 37733716; 37733592; 37733472; 37733348; 37733228; 37733104; 37732980; 37732860; 37732736; 37732616; 37732492; 37732372; 37732248; 37732128;
  37732004; 37731884; 37731760; 37731636; 37731516; 37731392; 37731272; 37731148; 37731028; 37730904; 37730784; 37730660; 37730536; 37730416; 37730292; 37730172; 37730048; 37729924; 37729804; 37729680;
  37729560; 37729436; 37729316; 37729192; 37729068; 37728948; 37728824; 37728700; 37728580; 37728456; 37728336; 37728212; 37728088; 37727968; 37727844; 37727724; 37727600; 37727476; 37727356; 37727232;
  37727108; 37726988; 37726864; 37726740; 37726620; 37726496; 37726376; 37726252; 37726128; 37726008; 37725884; 37725760; 37725640; 37725516; 37725392; 37725272; 37725148; 37725024; 37724904; 37724780;
  37724656; 37724536; 37724412; 37724288; 37724164; 37724044; 37723920; 37723796; 37723676; 37723552; 37723428; 37723308; 37723184; 37723060; 37722936; 37722816; 37722692; 37722568; 37722448; 37722324;
  37722200; 37722076; 37721956; 37721832; 37721708; 37721584; 37721464; 37721340; 37721216; 37721092; 37720972; 37720848; 37720724; 37720600; 37720480; 37720356; 37720232; 37720108; 37719988; 37719864;
  37719740; 37719616; 37719496; 37719372; 37719248; 37719124; 37719004; 37718880; 37718756; 37718632; 37718508; 37718388; 37718264; 37718140; 37718016; 37717892; 37717772; 37717648; 37717524; 37717400;
  37717276; 37717156; 37717032; 37716908; 37716784; 37716660; 37716536; 37716416; 37716292; 37716168; 37716044; 37715920; 37715796; 37715676; 37715552; 37715428; 37715304; 37715180; 37715056; 37714932;
  37714812; 37714688; 37714564; 37714440; 37714316; 37714192; 37714068; 37713948; 37713824; 37713700; 37713576; 37713452; 37713328; 37713204; 37713080; 37712956; 37712836; 37712712; 37712588; 37712464;
  37712340; 37712216; 37712092; 37711968; 37711844; 37711720; 37711600; 37711476; 37711352; 37711228; 37711104; 37710980; 37710856; 37710732; 37710608; 37710484; 37710360; 37710236; 37710112; 37709988;
  37709864; 37709744; 37709620; 37709496; 37709372; 37709248; 37709124; 37709000; 37708876; 37708752; 37708628; 37708504; 37708380; 37708256; 37708132; 37708008; 37707884; 37707760; 37707636; 37707512;
  37707388; 37707264; 37707140; 37707016; 37706892; 37706768; 37706644; 37706520; 37706396; 37706272; 37706148; 37706024; 37705900; 37705776; 37705652; 37705528; 37705404; 37705280; 37705156; 37705032;
  37704908; 37704784; 37704660; 37704536; 37704412; 37704288; 37704160; 37704036; 37703912; 37703788; 37703664; 37703540; 37703416; 37703292; 37703168; 37703044; 37702920; 37702796; 37702672; 37702548;
  37702424; 37702296; 37702172; 37702048; 37701924; 37701800; 37701676; 37701552; 37701428; 37701304; 37701180; 37701052; 37700928; 37700804; 37700680; 37700556; 37700432; 37700308; 37700184; 37700060;
  37699932; 37699808; 37699684; 37699560; 37699436; 37699312; 37699188; 37699060; 37698936; 37698812; 37698688; 37698564; 37698440; 37698316; 37698188; 37698064; 37697940; 37697816; 37697692; 37697568;
  37697440; 37697316; 37697192; 37697068; 37696944; 37696820; 37696692; 37696568; 37696444; 37696320; 37696196; 37696068; 37695944; 37695820; 37695696; 37695572; 37695444; 37695320; 37695196; 37695072;
  37694948; 37694820; 37694696; 37694572; 37694448; 37694320; 37694196; 37694072; 37693948; 37693820; 37693696; 37693572; 37693448; 37693320; 37693196; 37693072; 37692948; 37692820; 37692696; 37692572;
  37692448; 37692320; 37692196; 37692072; 37691948; 37691820; 37691696; 37691572; 37691444; 37691320; 37691196; 37691072; 37690944; 37690820; 37690696; 37690568; 37690444; 37690320; 37690196; 37690068;
  37689944; 37689820; 37689692; 37689568; 37689444; 37689316; 37689192; 37689068; 37688940; 37688816; 37688692; 37688564; 37688440; 37688316; 37688188; 37688064; 37687940; 37687812; 37687688; 37687564;
  37687436; 37687312; 37687188; 37687060; 37686936; 37686808; 37686684; 37686560; 37686432; 37686308; 37686184; 37686056; 37685932; 37685804; 37685680; 37685556; 37685428; 37685304; 37685176; 37685052;
  37684928; 37684800; 37684676; 37684548; 37684424; 37684300; 37684172; 37684048; 37683920; 37683796; 37683672; 37683544; 37683420; 37683292; 37683168; 37683040; 37682916; 37682792; 37682664; 37682540;
  37682412; 37682288; 37682160; 37682036; 37681908; 37681784; 37681656; 37681532; 37681408; 37681280; 37681156; 37681028; 37680904; 37680776; 37680652; 37680524; 37680400; 37680272; 37680148; 37680020;
  37679896; 37679768; 37679644; 37679516; 37679392; 37679264; 37679140; 37679012; 37678888; 37678760; 37678636; 37678508; 37678384; 37678256; 37678132; 37678004; 37677880; 37677752; 37677628; 37677500;
  37677372; 37677248; 37677120; 37676996; 37676868; 37676744; 37676616; 37676492; 37676364; 37676236; 37676112; 37675984; 37675860; 37675732; 37675608; 37675480; 37675352; 37675228; 37675100; 37674976;
  37674848; 37674724; 37674596; 37674468; 37674344; 37674216; 37674092; 37673964; 37673836; 37673712; 37673584; 37673460; 37673332; 37673204; 37673080; 37672952; 37672824; 37672700; 37672572; 37672448;
  37672320; 37672192; 37672068; 37671940; 37671812; 37671688; 37671560; 37671432; 37671308; 37671180; 37671052; 37670928; 37670800; 37670676; 37670548; 37670420; 37670296; 37670168; 37670040; 37669912;
  37669788; 37669660; 37669532; 37669408; 37669280; 37669152; 37669028; 37668900; 37668772; 37668648; 37668520; 37668392; 37668264; 37668140; 37668012; 37667884; 37667760; 37667632; 37667504; 37667376;
  37667252; 37667124; 37666996; 37666872; 37666744; 37666616; 37666488; 37666364; 37666236; 37666108; 37665980; 37665856; 37665728; 37665600; 37665472; 37665348; 37665220; 37665092; 37664964; 37664836;
  37664712; 37664584; 37664456; 37664328; 37664204; 37664076; 37663948; 37663820; 37663692; 37663568; 37663440; 37663312; 37663184; 37663056; 37662932; 37662804; 37662676; 37662548; 37662420; 37662296;
  37662168; 37662040; 37661912; 37661784; 37661656; 37661532; 37661404; 37661276; 37661148; 37661020; 37660892; 37660768; 37660640; 37660512; 37660384; 37660256; 37660128; 37660000; 37659876; 37659748;
  37659620; 37659492; 37659364; 37659236; 37659108; 37658980; 37658856; 37658728; 37658600; 37658472; 37658344; 37658216; 37658088; 37657960; 37657832; 37657708; 37657580; 37657452; 37657324; 37657196;
  37657068; 37656940; 37656812; 37656684; 37656556; 37656428; 37656300; 37656176; 37656048; 37655920; 37655792; 37655664; 37655536; 37655408; 37655280; 37655152; 37655024; 37654896; 37654768; 37654640;
  37654512; 37654384; 37654256; 37654128; 37654000; 37653872; 37653744; 37653616; 37653488; 37653360; 37653232; 37653104; 37652976; 37652848; 37652720; 37652592; 37652464; 37652336; 37652208; 37652080;
  37651952; 37651824; 37651696; 37651568; 37651440; 37651312; 37651184; 37651056; 37650928; 37650800; 37650672; 37650544; 37650416; 37650288; 37650160; 37650032; 37649904; 37649776; 37649648; 37649520;
  37649392; 37649264; 37649136; 37649008; 37648876; 37648748; 37648620; 37648492; 37648364; 37648236; 37648108; 37647980; 37647852; 37647724; 37647596; 37647468; 37647336; 37647208; 37647080; 37646952].
Definition values_04 : list Z := [
  37646824; 37646696; 37646568; 37646440; 37646312; 37646180; 37646052; 37645924; 37645796; 37645668; 37645540; 37645412; 37645284; 37645152; 37645024; 37644896; 37644768; 37644640; 37644512; 37644384;
  37644252; 37644124; 37643996; 37643868; 37643740; 37643612; 37643480; 37643352; 37643224; 37643096; 37642968; 37642840; 37642708; 37642580; 37642452; 37642324; 37642196; 37642064; 37641936; 37641808;
  37641680; 37641552; 37641420; 37641292; 37641164; 37641036; 37640908; 37640776; 37640648; 37640520; 37640392; 37640260; 37640132; 37640004; 37639876; 37639744; 37639616; 37639488; 37639360; 37639232;
  37639100; 37638972; 37638844; 37638712; 37638584; 37638456; 37638328; 37638196; 37638068; 37637940; 37637812; 37637680; 37637552; 37637424; 37637292; 37637164; 37637036; 37636908; 37636776; 37636648;
  37636520; 37636388; 37636260; 37636132; 37636000; 37635872; 37635744; 37635616; 37635484; 37635356; 37635228; 37635096; 37634968; 37634840; 37634708; 37634580; 37634452; 37634320; 37634192; 37634064;
  37633932; 37633804; 37633672; 37633544; 37633416; 37633284; 37633156; 37633028; 37632896; 37632768; 37632640; 37632508; 37632380; 37632248; 37632120; 37631992; 37631860; 37631732; 37631604; 37631472;
  37631344; 37631212; 37631084; 37630956; 37630824; 37630696; 37630564; 37630436; 37630304; 37630176; 37630048; 37629916; 37629788; 37629656; 37629528; 37629396; 37629268; 37629140; 37629008; 37628880;
  37628748; 37628620; 37628488; 37628360; 37628228; 37628100; 37627972; 37627840; 37627712; 37627580; 37627452; 37627320; 37627192; 37627060; 37626932; 37626800; 37626672; 37626540; 37626412; 37626280;
  37626152; 37626020; 37625892; 37625760; 37625632; 37625500; 37625372; 37625240; 37625112; 37624980; 37624852; 37624720; 37624592; 37624460; 37624332; 37624200; 37624072; 37623940; 37623808; 37623680;
  37623548; 37623420; 37623288; 37623160; 37623028; 37622900; 37622768; 37622636; 37622508; 37622376; 37622248; 37622116; 37621988; 37621856; 37621724; 37621596; 37621464; 37621336; 37621204; 37621076;
  37620944; 37620812; 37620684; 37620552; 37620424; 37620292; 37620160; 37620032; 37619900; 37619768; 37619640; 37619508; 37619380; 37619248; 37619116; 37618988; 37618856; 37618724; 37618596; 37618464;
  37618336; 37618204; 37618072; 37617944; 37617812; 37617680; 37617552; 37617420; 37617288; 37617160; 37617028; 37616896; 37616768; 37616636; 37616504; 37616376; 37616244; 37616112; 37615984; 37615852;
  37615720; 37615588; 37615460; 37615328; 37615196; 37615068; 37614936; 37614804; 37614676; 37614544; 37614412; 37614280; 37614152; 37614020; 37613888; 37613756; 37613628; 37613496; 37613364; 37613232;
  37613104; 37612972; 37612840; 37612708; 37612580; 37612448; 37612316; 37612184; 37612056; 37611924; 37611792; 37611660; 37611532; 37611400; 37611268; 37611136; 37611008; 37610876; 37610744; 37610612;
  37610480; 37610352; 37610220; 37610088; 37609956; 37609824; 37609696; 37609564; 37609432; 37609300; 37609168; 37609036; 37608908; 37608776; 37608644; 37608512; 37608380; 37608248; 37608120; 37607988;
  37607856; 37607724; 37607592; 37607460; 37607332; 37607200; 37607068; 37606936; 37606804; 37606672; 37606540; 37606408; 37606280; 37606148; 37606016; 37605884; 37605752; 37605620; 37605488; 37605356;
  37605228; 37605096; 37604964; 37604832; 37604700; 37604568; 37604436; 37604304; 37604172; 37604040; 37603908; 37603780; 37603648; 37603516; 37603384; 37603252; 37603120; 37602988; 37602856; 37602724;
  37602592; 37602460; 37602328; 37602196; 37602064; 37601932; 37601800; 37601668; 37601536; 37601404; 37601276; 37601144; 37601012; 37600880; 37600748; 37600616; 37600484; 37600352; 37600220; 37600088;
  37599956; 37599824; 37599692; 37599560; 37599428; 37599296; 37599164; 37599032; 37598900; 37598768; 37598636; 37598504; 37598372; 37598240; 37598104; 37597972; 37597840; 37597708; 37597576; 37597444;
  37597312; 37597180; 37597048; 37596916; 37596784; 37596652; 37596520; 37596388; 37596256; 37596124; 37595992; 37595860; 37595724; 37595592; 37595460; 37595328; 37595196; 37595064; 37594932; 37594800;
  37594668; 37594536; 37594404; 37594268; 37594136; 37594004; 37593872; 37593740; 37593608; 37593476; 37593344; 37593212; 37593076; 37592944; 37592812; 37592680; 37592548; 37592416; 37592284; 37592148;
  37592016; 37591884; 37591752; 37591620; 37591488; 37591356; 37591220; 37591088; 37590956; 37590824; 37590692; 37590556; 37590424; 37590292; 37590160; 37590028; 37589896; 37589760; 37589628; 37589496;
  37589364; 37589232; 37589096; 37588964; 37588832; 37588700; 37588568; 37588432; 37588300; 37588168; 37588036; 37587900; 37587768; 37587636; 37587504; 37587368; 37587236; 37587104; 37586972; 37586840;
  37586704; 37586572; 37586440; 37586304; 37586172; 37586040; 37585908; 37585772; 37585640; 37585508; 37585376; 37585240; 37585108; 37584976; 37584840; 37584708; 37584576; 37584444; 37584308; 37584176;
  37584044; 37583908; 37583776; 37583644; 37583508; 37583376; 37583244; 37583112; 37582976; 37582844; 37582712; 37582576; 37582444; 37582312; 37582176; 37582044; 37581912; 37581776; 37581644; 37581508;
  37581376; 37581244; 37581108; 37580976; 37580844; 37580708; 37580576; 37580444; 37580308; 37580176; 37580040; 37579908; 37579776; 37579640; 37579508; 37579372; 37579240; 37579108; 37578972; 37578840;
  37578704; 37578572; 37578440; 37578304; 37578172; 37578036; 37577904; 37577772; 37577636; 37577504; 37577368; 37577236; 37577100; 37576968; 37576836; 37576700; 37576568; 37576432; 37576300; 37576164;
  37576032; 37575896; 37575764; 37575628; 37575496; 37575360; 37575228; 37575096; 37574960; 37574828; 37574692; 37574560; 37574424; 37574292; 37574156; 37574024; 37573888; 37573756; 37573620; 37573488;
  37573352; 37573220; 37573084; 37572952; 37572816; 37572680; 37572548; 37572412; 37572280; 37572144; 37572012; 37571876; 37571744; 37571608; 37571476; 37571340; 37571208; 37571072; 37570936; 37570804;
  37570668; 37570536; 37570400; 37570268; 37570132; 37569996; 37569864; 37569728; 37569596; 37569460; 37569328; 37569192; 37569056; 37568924; 37568788; 37568656; 37568520; 37568384; 37568252; 37568116;
  37567984; 37567848; 37567712; 37567580; 37567444; 37567308; 37567176; 37567040; 37566904; 37566772; 37566636; 37566504; 37566368; 37566232; 37566100; 37565964; 37565828; 37565696; 37565560; 37565424;
  37565292; 37565156; 37565020; 37564888; 37564752; 37564616; 37564484; 37564348; 37564212; 37564080; 37563944; 37563808; 37563672; 37563540; 37563404; 37563268; 37563136; 37563000; 37562864; 37562728;
  37562596; 37562460; 37562324; 37562192; 37562056; 37561920; 37561784; 37561652; 37561516; 37561380; 37561244; 37561112; 37560976; 37560840; 37560704; 37560572; 37560436; 37560300; 37560164; 37560032;
  37559896; 37559760; 37559624; 37559488; 37559356; 37559220; 37559084; 37558948; 37558812; 37558680; 37558544; 37558408; 37558272; 37558136; 37558004; 37557868; 37557732; 37557596; 37557460; 37557328;
  37557192; 37557056; 37556920; 37556784; 37556648; 37556516; 37556380; 37556244; 37556108; 37555972; 37555836; 37555700; 37555568; 37555432; 37555296; 37555160; 37555024; 37554888; 37554752; 37554616;
  37554484; 37554348; 37554212; 37554076; 37553940; 37553804; 37553668; 37553532; 37553396; 37553264; 37553128; 37552992; 37552856; 37552720; 37552584; 37552448; 37552312; 37552176; 37552040; 37551904;
  37551768; 37551632; 37551500; 37551364; 37551228; 37551092; 37550956; 37550820; 37550684; 37550548; 37550412; 37550276; 37550140; 37550004; 37549868; 37549732; 37549596; 37549460; 37549324; 37549188;
  37549052; 37548916; 37548780; 37548644; 37548508; 37548372; 37548236; 37548100; 37547964; 37547828; 37547692; 37547556; 37547420; 37547284; 37547148; 37547012; 37546876; 37546740; 37546604; 37546468;
  37546332; 37546196; 37546060; 37545924; 37545788; 37545652; 37545516; 37545376; 37545240; 37545104; 37544968; 37544832; 37544696; 37544560; 37544424; 37544288; 37544152; 37544016; 37543880; 37543744;
  37543604; 37543468; 37543332; 37543196; 37543060; 37542924; 37542788; 37542652; 37542516; 37542376; 37542240; 37542104; 37541968; 37541832; 37541696; 37541560; 37541424; 37541284; 37541148; 37541012;
  37540876; 37540740; 37540604; 37540468; 37540328; 37540192; 37540056; 37539920; 37539784; 37539648; 37539508; 37539372; 37539236; 37539100; 37538964; 37538824; 37538688; 37538552; 37538416; 37538280;
  37538140; 37538004; 37537868; 37537732; 37537596; 37537456; 37537320; 37537184; 37537048; 37536908; 37536772; 37536636; 37536500; 37536364; 37536224; 37536088; 37535952; 37535816; 37535676; 37535540;
  37535404; 37535264; 37535128; 37534992; 37534856; 37534716; 37534580; 37534444; 37534308; 37534168; 37534032; 37533896; 37533756; 37533620; 37533484; 37533348; 37533208; 37533072; 37532936; 37532796;
  37532660; 37532524; 37532384; 37532248; 37532112; 37531972; 37531836; 37531700; 37531560; 37531424; 37531288; 37531148; 37531012; 37530876; 37530736; 37530600; 37530464; 37530324; 37530188; 37530052;
  37529912; 37529776; 37529636; 37529500; 37529364; 37529224; 37529088; 37528952; 37528812; 37528676; 37528536; 37528400; 37528264; 37528124; 37527988; 37527848; 37527712; 37527572; 37527436; 37527300;
  37527160; 37527024; 37526884; 37526748; 37526612; 37526472; 37526336; 37526196; 37526060; 37525920; 37525784; 37525644; 37525508; 37525368; 37525232; 37525096; 37524956; 37524820; 37524680; 37524544;
  37524404; 37524268; 37524128; 37523992; 37523852; 37523716; 37523576; 37523440; 37523300; 37523164; 37523024; 37522888; 37522748; 37522612; 37522472; 37522336; 37522196; 37522060; 37521920; 37521784;
  37521644; 37521504; 37521368; 37521228; 37521092; 37520952; 37520816; 37520676; 37520540; 37520400; 37520264; 37520124; 37519984; 37519848; 37519708; 37519572; 37519432; 37519296; 37519156; 37519016;
  37518880; 37518740; 37518604; 37518464; 37518324; 37518188; 37518048; 37517912; 37517772; 37517632; 37517496; 37517356; 37517216; 37517080; 37516940; 37516804; 37516664; 37516524; 37516388; 37516248;
  37516108; 37515972; 37515832; 37515692; 37515556; 37515416; 37515276; 37515140; 37515000; 37514860; 37514724; 37514584; 37514444; 37514308; 37514168; 37514028; 37513892; 37513752; 37513612; 37513476].
Definition values_05 : list Z := [
  37513336; 37513196; 37513056; 37512920; 37512780; 37512640; 37512504; 37512364; 37512224; 37512084; 37511948; 37511808; 37511668; 37511532; 37511392; 37511252; 37511112; 37510976; 37510836; 37510696;
  37510556; 37510420; 37510280; 37510140; 37510000; 37509860; 37509724; 37509584; 37509444; 37509304; 37509168; 37509028; 37508888; 37508748; 37508608; 37508472; 37508332; 37508192; 37508052; 37507912;
  37507776; 37507636; 37507496; 37507356; 37507216; 37507076; 37506940; 37506800; 37506660; 37506520; 37506380; 37506240; 37506104; 37505964; 37505824; 37505684; 37505544; 37505404; 37505264; 37505128;
  37504988; 37504848; 37504708; 37504568; 37504428; 37504288; 37504148; 37504012; 37503872; 37503732; 37503592; 37503452; 37503312; 37503172; 37503032; 37502892; 37502752; 37502612; 37502476; 37502336;
  37502196; 37502056; 37501916; 37501776; 37501636; 37501496; 37501356; 37501216; 37501076; 37500936; 37500796; 37500656; 37500516; 37500376; 37500236; 37500096; 37499956; 37499820; 37499680; 37499540;
  37499400; 37499260; 37499120; 37498980; 37498840; 37498700; 37498560; 37498420; 37498280; 37498140; 37498000; 37497860; 37497720; 37497580; 37497436; 37497296; 37497156; 37497016; 37496876; 37496736;
  37496596; 37496456; 37496316; 37496176; 37496036; 37495896; 37495756; 37495616; 37495476; 37495336; 37495196; 37495056; 37494916; 37494776; 37494632; 37494492; 37494352; 37494212; 37494072; 37493932;
  37493792; 37493652; 37493512; 37493372; 37493228; 37493088; 37492948; 37492808; 37492668; 37492528; 37492388; 37492248; 37492104; 37491964; 37491824; 37491684; 37491544; 37491404; 37491264; 37491120;
  37490980; 37490840; 37490700; 37490560; 37490420; 37490280; 37490136; 37489996; 37489856; 37489716; 37489576; 37489432; 37489292; 37489152; 37489012; 37488872; 37488728; 37488588; 37488448; 37488308;
  37488168; 37488024; 37487884; 37487744; 37487604; 37487464; 37487320; 37487180; 37487040; 37486900; 37486756; 37486616; 37486476; 37486336; 37486192; 37486052; 37485912; 37485772; 37485628; 37485488;
  37485348; 37485208; 37485064; 37484924; 37484784; 37484640; 37484500; 37484360; 37484220; 37484076; 37483936; 37483796; 37483652; 37483512; 37483372; 37483228; 37483088; 37482948; 37482804; 37482664;
  37482524; 37482380; 37482240; 37482100; 37481956; 37481816; 37481676; 37481532; 37481392; 37481252; 37481108; 37480968; 37480828; 37480684; 37480544; 37480404; 37480260; 37480120; 37479976; 37479836;
  37479696; 37479552; 37479412; 37479268; 37479128; 37478988; 37478844; 37478704; 37478560; 37478420; 37478280; 37478136; 37477996; 37477852; 37477712; 37477568; 37477428; 37477288; 37477144; 37477004;
  37476860; 37476720; 37476576; 37476436; 37476292; 37476152; 37476012; 37475868; 37475728; 37475584; 37475444; 37475300; 37475160; 37475016; 37474876; 37474732; 37474592; 37474448; 37474308; 37474164;
  37474024; 37473880; 37473740; 37473596; 37473456; 37473312; 37473172; 37473028; 37472888; 37472744; 37472604; 37472460; 37472320; 37472176; 37472032; 37471892; 37471748; 37471608; 37471464; 37471324;
  37471180; 37471040; 37470896; 37470752; 37470612; 37470468; 37470328; 37470184; 37470040; 37469900; 37469756; 37469616; 37469472; 37469332; 37469188; 37469044; 37468904; 37468760; 37468616; 37468476;
  37468332; 37468192; 37468048; 37467904; 37467764; 37467620; 37467476; 37467336; 37467192; 37467052; 37466908; 37466764; 37466624; 37466480; 37466336; 37466196; 37466052; 37465908; 37465768; 37465624;
  37465480; 37465340; 37465196; 37465052; 37464908; 37464768; 37464624; 37464480; 37464340; 37464196; 37464052; 37463912; 37463768; 37463624; 37463480; 37463340; 37463196; 37463052; 37462908; 37462768;
  37462624; 37462480; 37462340; 37462196; 37462052; 37461908; 37461768; 37461624; 37461480; 37461336; 37461192; 37461052; 37460908; 37460764; 37460620; 37460480; 37460336; 37460192; 37460048; 37459904;
  37459764; 37459620; 37459476; 37459332; 37459188; 37459048; 37458904; 37458760; 37458616; 37458472; 37458328; 37458188; 37458044; 37457900; 37457756; 37457612; 37457468; 37457328; 37457184; 37457040;
  37456896; 37456752; 37456608; 37456464; 37456324; 37456180; 37456036; 37455892; 37455748; 37455604; 37455460; 37455316; 37455172; 37455032; 37454888; 37454744; 37454600; 37454456; 37454312; 37454168;
  37454024; 37453880; 37453736; 37453592; 37453452; 37453308; 37453164; 37453020; 37452876; 37452732; 37452588; 37452444; 37452300; 37452156; 37452012; 37451868; 37451724; 37451580; 37451436; 37451292;
  37451148; 37451004; 37450860; 37450716; 37450572; 37450428; 37450284; 37450140; 37449996; 37449852; 37449708; 37449564; 37449420; 37449276; 37449132; 37448988; 37448844; 37448700; 37448556; 37448412;
  37448268; 37448124; 37447980; 37447836; 37447692; 37447548; 37447404; 37447260; 37447116; 37446972; 37446828; 37446680; 37446536; 37446392; 37446248; 37446104; 37445960; 37445816; 37445672; 37445528;
  37445384; 37445240; 37445092; 37444948; 37444804; 37444660; 37444516; 37444372; 37444228; 37444084; 37443940; 37443792; 37443648; 37443504; 37443360; 37443216; 37443072; 37442928; 37442780; 37442636;
  37442492; 37442348; 37442204; 37442060; 37441912; 37441768; 37441624; 37441480; 37441336; 37441192; 37441044; 37440900; 37440756; 37440612; 37440468; 37440320; 37440176; 37440032; 37439888; 37439740;
  37439596; 37439452; 37439308; 37439164; 37439016; 37438872; 37438728; 37438584; 37438436; 37438292; 37438148; 37438004; 37437856; 37437712; 37437568; 37437424; 37437276; 37437132; 37436988; 37436844;
  37436696; 37436552; 37436408; 37436260; 37436116; 37435972; 37435824; 37435680; 37435536; 37435392; 37435244; 37435100; 37434956; 37434808; 37434664; 37434520; 37434372; 37434228; 37434084; 37433936;
  37433792; 37433648; 37433500; 37433356; 37433212; 37433064; 37432920; 37432776; 37432628; 37432484; 37432336; 37432192; 37432048; 37431900; 37431756; 37431608; 37431464; 37431320; 37431172; 37431028;
  37430880; 37430736; 37430592; 37430444; 37430300; 37430152; 37430008; 37429864; 37429716; 37429572; 37429424; 37429280; 37429132; 37428988; 37428844; 37428696; 37428552; 37428404; 37428260; 37428112;
  37427968; 37427820; 37427676; 37427528; 37427384; 37427236; 37427092; 37426944; 37426800; 37426652; 37426508; 37426360; 37426216; 37426068; 37425924; 37425776; 37425632; 37425484; 37425340; 37425192;
  37425048; 37424900; 37424756; 37424608; 37424464; 37424316; 37424172; 37424024; 37423880; 37423732; 37423584; 37423440; 37423292; 37423148; 37423000; 37422856; 37422708; 37422560; 37422416; 37422268;
  37422124; 37421976; 37421828; 37421684; 37421536; 37421392; 37421244; 37421096; 37420952; 37420804; 37420660; 37420512; 37420364; 37420220; 37420072; 37419924; 37419780; 37419632; 37419488; 37419340;
  37419192; 37419048; 37418900; 37418752; 37418608; 37418460; 37418312; 37418168; 37418020; 37417872; 37417728; 37417580; 37417432; 37417284; 37417140; 37416992; 37416844; 37416700; 37416552; 37416404;
  37416260; 37416112; 37415964; 37415816; 37415672; 37415524; 37415376; 37415228; 37415084; 37414936; 37414788; 37414644; 37414496; 37414348; 37414200; 37414052; 37413908; 37413760; 37413612; 37413464;
  37413320; 37413172; 37413024; 37412876; 37412732; 37412584; 37412436; 37412288; 37412140; 37411996; 37411848; 37411700; 37411552; 37411404; 37411256; 37411112; 37410964; 37410816; 37410668; 37410520;
  37410372; 37410228; 37410080; 37409932; 37409784; 37409636; 37409488; 37409340; 37409196; 37409048; 37408900; 37408752; 37408604; 37408456; 37408308; 37408160; 37408016; 37407868; 37407720; 37407572;
  37407424; 37407276; 37407128; 37406980; 37406832; 37406684; 37406540; 37406392; 37406244; 37406096; 37405948; 37405800; 37405652; 37405504; 37405356; 37405208; 37405060; 37404912; 37404764; 37404616;
  37404468; 37404320; 37404172; 37404024; 37403876; 37403728; 37403580; 37403432; 37403284; 37403136; 37402988; 37402840; 37402692; 37402544; 37402396; 37402248; 37402100; 37401952; 37401804; 37401656;
  37401508; 37401360; 37401212; 37401064; 37400916; 37400768; 37400620; 37400472; 37400324; 37400176; 37400028; 37399880; 37399732; 37399584; 37399436; 37399288; 37399136; 37398988; 37398840; 37398692;
  37398544; 37398396; 37398248; 37398100; 37397952; 37397804; 37397652; 37397504; 37397356; 37397208; 37397060; 37396912; 37396764; 37396616; 37396464; 37396316; 37396168; 37396020; 37395872; 37395724;
  37395576; 37395424; 37395276; 37395128; 37394980; 37394832; 37394684; 37394532; 37394384; 37394236; 37394088; 37393940; 37393788; 37393640; 37393492; 37393344; 37393196; 37393044; 37392896; 37392748;
  37392600; 37392452; 37392300; 37392152; 37392004; 37391856; 37391704; 37391556; 37391408; 37391260; 37391108; 37390960; 37390812; 37390664; 37390512; 37390364; 37390216; 37390068; 37389916; 37389768;
  37389620; 37389468; 37389320; 37389172; 37389024; 37388872; 37388724; 37388576; 37388424; 37388276; 37388128; 37387976; 37387828; 37387680; 37387528; 37387380; 37387232; 37387080; 37386932; 37386784;
  37386632; 37386484; 37386336; 37386184; 37386036; 37385888; 37385736; 37385588; 37385436; 37385288; 37385140; 37384988; 37384840; 37384688; 37384540; 37384392; 37384240; 37384092; 37383940; 37383792;
  37383644; 37383492; 37383344; 37383192; 37383044; 37382896; 37382744; 37382596; 37382444; 37382296; 37382144; 37381996; 37381844; 37381696; 37381548; 37381396; 37381248; 37381096; 37380948; 37380796;
  37380648; 37380496; 37380348; 37380196; 37380048; 37379896; 37379748; 37379596; 37379448; 37379296; 37379148; 37378996; 37378848; 37378696; 37378548; 37378396; 37378248; 37378096; 37377948; 37377796;
  37377644; 37377496; 37377344; 37377196; 37377044; 37376896; 37376744; 37376596; 37376444; 37376292; 37376144; 37375992; 37375844; 37375692; 37375540; 37375392; 37375240; 37375092; 37374940; 37374788;
  37374640; 37374488; 37374340; 37374188; 37374036; 37373888; 37373736; 37373584; 37373436; 37373284; 37373136; 37372984; 37372832; 37372684; 37372532; 37372380; 37372232; 37372080; 37371928; 37371780;
  37371628; 37371476; 37371328; 37371176; 37371024; 37370876; 37370724; 37370572; 37370420; 37370272; 37370120; 37369968; 37369820; 37369668; 37369516; 37369364; 37369216; 37369064; 37368912; 37368764].
Definition values_06 : list Z := [
  37368612; 37368460; 37368308; 37368160; 37368008; 37367856; 37367704; 37367552; 37367404; 37367252; 37367100; 37366948; 37366800; 37366648; 37366496; 37366344; 37366192; 37366044; 37365892; 37365740;
  37365588; 37365436; 37365288; 37365136; 37364984; 37364832; 37364680; 37364528; 37364380; 37364228; 37364076; 37363924; 37363772; 37363620; 37363472; 37363320; 37363168; 37363016; 37362864; 37362712;
  37362560; 37362412; 37362260; 37362108; 37361956; 37361804; 37361652; 37361500; 37361348; 37361196; 37361044; 37360896; 37360744; 37360592; 37360440; 37360288; 37360136; 37359984; 37359832; 37359680;
  37359528; 37359376; 37359224; 37359072; 37358920; 37358768; 37358616; 37358468; 37358316; 37358164; 37358012; 37357860; 37357708; 37357556; 37357404; 37357252; 37357100; 37356948; 37356796; 37356644;
  37356492; 37356340; 37356188; 37356036; 37355884; 37355732; 37355580; 37355428; 37355276; 37355120; 37354968; 37354816; 37354664; 37354512; 37354360; 37354208; 37354056; 37353904; 37353752; 37353600;
  37353448; 37353296; 37353144; 37352992; 37352840; 37352684; 37352532; 37352380; 37352228; 37352076; 37351924; 37351772; 37351620; 37351468; 37351312; 37351160; 37351008; 37350856; 37350704; 37350552;
  37350400; 37350248; 37350092; 37349940; 37349788; 37349636; 37349484; 37349332; 37349176; 37349024; 37348872; 37348720; 37348568; 37348416; 37348260; 37348108; 37347956; 37347804; 37347652; 37347496;
  37347344; 37347192; 37347040; 37346884; 37346732; 37346580; 37346428; 37346276; 37346120; 37345968; 37345816; 37345664; 37345508; 37345356; 37345204; 37345052; 37344896; 37344744; 37344592; 37344436;
  37344284; 37344132; 37343980; 37343824; 37343672; 37343520; 37343364; 37343212; 37343060; 37342908; 37342752; 37342600; 37342448; 37342292; 37342140; 37341988; 37341832; 37341680; 37341528; 37341372;
  37341220; 37341068; 37340912; 37340760; 37340608; 37340452; 37340300; 37340144; 37339992; 37339840; 37339684; 37339532; 37339380; 37339224; 37339072; 37338916; 37338764; 37338612; 37338456; 37338304;
  37338148; 37337996; 37337844; 37337688; 37337536; 37337380; 37337228; 37337072; 37336920; 37336764; 37336612; 37336460; 37336304; 37336152; 37335996; 37335844; 37335688; 37335536; 37335380; 37335228;
  37335072; 37334920; 37334764; 37334612; 37334456; 37334304; 37334148; 37333996; 37333840; 37333688; 37333532; 37333380; 37333224; 37333072; 37332916; 37332764; 37332608; 37332456; 37332300; 37332148;
  37331992; 37331836; 37331684; 37331528; 37331376; 37331220; 37331068; 37330912; 37330756; 37330604; 37330448; 37330296; 37330140; 37329988; 37329832; 37329676; 37329524; 37329368; 37329216; 37329060;
  37328904; 37328752; 37328596; 37328440; 37328288; 37328132; 37327976; 37327824; 37327668; 37327516; 37327360; 37327204; 37327052; 37326896; 37326740; 37326588; 37326432; 37326276; 37326124; 37325968;
  37325812; 37325656; 37325504; 37325348; 37325192; 37325040; 37324884; 37324728; 37324576; 37324420; 37324264; 37324108; 37323956; 37323800; 37323644; 37323488; 37323336; 37323180; 37323024; 37322868;
  37322716; 37322560; 37322404; 37322248; 37322096; 37321940; 37321784; 37321628; 37321472; 37321320; 37321164; 37321008; 37320852; 37320696; 37320544; 37320388; 37320232; 37320076; 37319920; 37319768;
  37319612; 37319456; 37319300; 37319144; 37318988; 37318836; 37318680; 37318524; 37318368; 37318212; 37318056; 37317900; 37317748; 37317592; 37317436; 37317280; 37317124; 37316968; 37316812; 37316656;
  37316500; 37316348; 37316192; 37316036; 37315880; 37315724; 37315568; 37315412; 37315256; 37315100; 37314944; 37314788; 37314632; 37314480; 37314324; 37314168; 37314012; 37313856; 37313700; 37313544;
  37313388; 37313232; 37313076; 37312920; 37312764; 37312608; 37312452; 37312296; 37312140; 37311984; 37311828; 37311672; 37311516; 37311360; 37311204; 37311048; 37310892; 37310736; 37310580; 37310424;
  37310268; 37310112; 37309956; 37309800; 37309644; 37309484; 37309328; 37309172; 37309016; 37308860; 37308704; 37308548; 37308392; 37308236; 37308080; 37307924; 37307768; 37307612; 37307452; 37307296;
  37307140; 37306984; 37306828; 37306672; 37306516; 37306360; 37306200; 37306044; 37305888; 37305732; 37305576; 37305420; 37305264; 37305104; 37304948; 37304792; 37304636; 37304480; 37304324; 37304164;
  37304008; 37303852; 37303696; 37303540; 37303384; 37303224; 37303068; 37302912; 37302756; 37302600; 37302440; 37302284; 37302128; 37301972; 37301812; 37301656; 37301500; 37301344; 37301184; 37301028;
  37300872; 37300716; 37300556; 37300400; 37300244; 37300088; 37299928; 37299772; 37299616; 37299460; 37299300; 37299144; 37298988; 37298828; 37298672; 37298516; 37298356; 37298200; 37298044; 37297888;
  37297728; 37297572; 37297416; 37297256; 37297100; 37296944; 37296784; 37296628; 37296468; 37296312; 37296156; 37295996; 37295840; 37295684; 37295524; 37295368; 37295212; 37295052; 37294896; 37294736;
  37294580; 37294424; 37294264; 37294108; 37293948; 37293792; 37293636; 37293476; 37293320; 37293160; 37293004; 37292844; 37292688; 37292532; 37292372; 37292216; 37292056; 37291900; 37291740; 37291584;
  37291424; 37291268; 37291108; 37290952; 37290792; 37290636; 37290476; 37290320; 37290160; 37290004; 37289844; 37289688; 37289528; 37289372; 37289212; 37289056; 37288896; 37288740; 37288580; 37288424;
  37288264; 37288108; 37287948; 37287792; 37287632; 37287476; 37287316; 37287156; 37287000; 37286840; 37286684; 37286524; 37286368; 37286208; 37286048; 37285892; 37285732; 37285576; 37285416; 37285256;
  37285100; 37284940; 37284784; 37284624; 37284464; 37284308; 37284148; 37283988; 37283832; 37283672; 37283512; 37283356; 37283196; 37283036; 37282880; 37282720; 37282560; 37282404; 37282244; 37282084;
  37281928; 37281768; 37281608; 37281452; 37281292; 37281132; 37280976; 37280816; 37280656; 37280496; 37280340; 37280180; 37280020; 37279864; 37279704; 37279544; 37279384; 37279228; 37279068; 37278908;
  37278748; 37278592; 37278432; 37278272; 37278112; 37277956; 37277796; 37277636; 37277476; 37277316; 37277160; 37277000; 37276840; 37276680; 37276520; 37276364; 37276204; 37276044; 37275884; 37275724;
  37275564; 37275408; 37275248; 37275088; 37274928; 37274768; 37274608; 37274452; 37274292; 37274132; 37273972; 37273812; 37273652; 37273492; 37273332; 37273176; 37273016; 37272856; 37272696; 37272536;
  37272376; 37272216; 37272056; 37271896; 37271736; 37271580; 37271420; 37271260; 37271100; 37270940; 37270780; 37270620; 37270460; 37270300; 37270140; 37269980; 37269820; 37269660; 37269500; 37269340;
  37269180; 37269020; 37268860; 37268700; 37268540; 37268380; 37268220; 37268060; 37267900; 37267740; 37267580; 37267420; 37267260; 37267100; 37266940; 37266780; 37266620; 37266460; 37266300; 37266140;
  37265980; 37265820; 37265660; 37265500; 37265340; 37265180; 37265020; 37264856; 37264696; 37264536; 37264376; 37264216; 37264056; 37263896; 37263736; 37263576; 37263416; 37263256; 37263092; 37262932;
  37262772; 37262612; 37262452; 37262292; 37262132; 37261968; 37261808; 37261648; 37261488; 37261328; 37261168; 37261008; 37260844; 37260684; 37260524; 37260364; 37260204; 37260040; 37259880; 37259720;
  37259560; 37259400; 37259236; 37259076; 37258916; 37258756; 37258596; 37258432; 37258272; 37258112; 37257952; 37257788; 37257628; 37257468; 37257308; 37257144; 37256984; 37256824; 37256664; 37256500;
  37256340; 37256180; 37256020; 37255856; 37255696; 37255536; 37255372; 37255212; 37255052; 37254888; 37254728; 37254568; 37254408; 37254244; 37254084; 37253924; 37253760; 37253600; 37253440; 37253276;
  37253116; 37252952; 37252792; 37252632; 37252468; 37252308; 37252148; 37251984; 37251824; 37251660; 37251500; 37251340; 37251176; 37251016; 37250856; 37250692; 37250532; 37250368; 37250208; 37250044;
  37249884; 37249724; 37249560; 37249400; 37249236; 37249076; 37248912; 37248752; 37248588; 37248428; 37248268; 37248104; 37247944; 37247780; 37247620; 37247456; 37247296; 37247132; 37246972; 37246808;
  37246648; 37246484; 37246324; 37246160; 37246000; 37245836; 37245676; 37245512; 37245352; 37245188; 37245028; 37244864; 37244700; 37244540; 37244376; 37244216; 37244052; 37243892; 37243728; 37243564;
  37243404; 37243240; 37243080; 37242916; 37242756; 37242592; 37242428; 37242268; 37242104; 37241944; 37241780; 37241616; 37241456; 37241292; 37241128; 37240968; 37240804; 37240644; 37240480; 37240316;
  37240156; 37239992; 37239828; 37239668; 37239504; 37239340; 37239180; 37239016; 37238852; 37238692; 37238528; 37238364; 37238200; 37238040; 37237876; 37237712; 37237552; 37237388; 37237224; 37237060;
  37236900; 37236736; 37236572; 37236412; 37236248; 37236084; 37235920; 37235760; 37235596; 37235432; 37235268; 37235104; 37234944; 37234780; 37234616; 37234452; 37234292; 37234128; 37233964; 37233800;
  37233636; 37233476; 37233312; 37233148; 37232984; 37232820; 37232656; 37232496; 37232332; 37232168; 37232004; 37231840; 37231676; 37231516; 37231352; 37231188; 37231024; 37230860; 37230696; 37230532;
  37230368; 37230208; 37230044; 37229880; 37229716; 37229552; 37229388; 37229224; 37229060; 37228896; 37228732; 37228568; 37228408; 37228244; 37228080; 37227916; 37227752; 37227588; 37227424; 37227260;
  37227096; 37226932; 37226768; 37226604; 37226440; 37226276; 37226112; 37225948; 37225784; 37225620; 37225456; 37225292; 37225128; 37224964; 37224800; 37224636; 37224472; 37224308; 37224144; 37223980;
  37223816; 37223652; 37223488; 37223324; 37223160; 37222996; 37222832; 37222668; 37222500; 37222336; 37222172; 37222008; 37221844; 37221680; 37221516; 37221352; 37221188; 37221024; 37220860; 37220692;
  37220528; 37220364; 37220200; 37220036; 37219872; 37219708; 37219544; 37219376; 37219212; 37219048; 37218884; 37218720; 37218556; 37218388; 37218224; 37218060; 37217896; 37217732; 37217568; 37217400;
  37217236; 37217072; 37216908; 37216744; 37216576; 37216412; 37216248; 37216084; 37215916; 37215752; 37215588; 37215424; 37215260; 37215092; 37214928; 37214764; 37214600; 37214432; 37214268; 37214104;
  37213936; 37213772; 37213608; 37213444; 37213276; 37213112; 37212948; 37212780; 37212616; 37212452; 37212288; 37212120; 37211956; 37211792; 37211624; 37211460; 37211296; 37211128; 37210964; 37210800].
Definition values_07 : list Z := [
  37210632; 37210468; 37210300; 37210136; 37209972; 37209804; 37209640; 37209476; 37209308; 37209144; 37208976; 37208812; 37208648; 37208480; 37208316; 37208148; 37207984; 37207820; 37207652; 37207488;
  37207320; 37207156; 37206988; 37206824; 37206660; 37206492; 37206328; 37206160; 37205996; 37205828; 37205664; 37205496; 37205332; 37205164; 37205000; 37204832; 37204668; 37204500; 37204336; 37204168;
  37204004; 37203836; 37203672; 37203504; 37203340; 37203172; 37203008; 37202840; 37202676; 37202508; 37202344; 37202176; 37202008; 37201844; 37201676; 37201512; 37201344; 37201180; 37201012; 37200844;
  37200680; 37200512; 37200348; 37200180; 37200012; 37199848; 37199680; 37199516; 37199348; 37199180; 37199016; 37198848; 37198680; 37198516; 37198348; 37198180; 37198016; 37197848; 37197684; 37197516;
  37197348; 37197180; 37197016; 37196848; 37196680; 37196516; 37196348; 37196180; 37196016; 37195848; 37195680; 37195516; 37195348; 37195180; 37195012; 37194848; 37194680; 37194512; 37194344; 37194180;
  37194012; 37193844; 37193676; 37193512; 37193344; 37193176; 37193008; 37192844; 37192676; 37192508; 37192340; 37192172; 37192008; 37191840; 37191672; 37191504; 37191336; 37191172; 37191004; 37190836;
  37190668; 37190500; 37190332; 37190168; 37190000; 37189832; 37189664; 37189496; 37189328; 37189160; 37188996; 37188828; 37188660; 37188492; 37188324; 37188156; 37187988; 37187820; 37187652; 37187488;
  37187320; 37187152; 37186984; 37186816; 37186648; 37186480; 37186312; 37186144; 37185976; 37185808; 37185640; 37185472; 37185304; 37185136; 37184968; 37184800; 37184632; 37184464; 37184300; 37184132;
  37183964; 37183796; 37183628; 37183460; 37183292; 37183120; 37182952; 37182784; 37182616; 37182448; 37182280; 37182112; 37181944; 37181776; 37181608; 37181440; 37181272; 37181104; 37180936; 37180768;
  37180600; 37180432; 37180264; 37180096; 37179924; 37179756; 37179588; 37179420; 37179252; 37179084; 37178916; 37178748; 37178580; 37178408; 37178240; 37178072; 37177904; 37177736; 37177568; 37177400;
  37177228; 37177060; 37176892; 37176724; 37176556; 37176388; 37176216; 37176048; 37175880; 37175712; 37175544; 37175372; 37175204; 37175036; 37174868; 37174700; 37174528; 37174360; 37174192; 37174024;
  37173852; 37173684; 37173516; 37173348; 37173176; 37173008; 37172840; 37172672; 37172500; 37172332; 37172164; 37171996; 37171824; 37171656; 37171488; 37171316; 37171148; 37170980; 37170808; 37170640;
  37170472; 37170300; 37170132; 37169964; 37169792; 37169624; 37169456; 37169284; 37169116; 37168948; 37168776; 37168608; 37168440; 37168268; 37168100; 37167932; 37167760; 37167592; 37167420; 37167252;
  37167084; 37166912; 37166744; 37166572; 37166404; 37166232; 37166064; 37165896; 37165724; 37165556; 37165384; 37165216; 37165044; 37164876; 37164704; 37164536; 37164364; 37164196; 37164028; 37163856;
  37163688; 37163516; 37163348; 37163176; 37163008; 37162836; 37162668; 37162496; 37162328; 37162156; 37161984; 37161816; 37161644; 37161476; 37161304; 37161136; 37160964; 37160796; 37160624; 37160456;
  37160284; 37160112; 37159944; 37159772; 37159604; 37159432; 37159260; 37159092; 37158920; 37158752; 37158580; 37158408; 37158240; 37158068; 37157900; 37157728; 37157556; 37157388; 37157216; 37157044;
  37156876; 37156704; 37156532; 37156364; 37156192; 37156020; 37155852; 37155680; 37155508; 37155340; 37155168; 37154996; 37154824; 37154656; 37154484; 37154312; 37154144; 37153972; 37153800; 37153628;
  37153460; 37153288; 37153116; 37152944; 37152776; 37152604; 37152432; 37152260; 37152092; 37151920; 37151748; 37151576; 37151408; 37151236; 37151064; 37150892; 37150720; 37150552; 37150380; 37150208;
  37150036; 37149864; 37149692; 37149524; 37149352; 37149180; 37149008; 37148836; 37148664; 37148492; 37148324; 37148152; 37147980; 37147808; 37147636; 37147464; 37147292; 37147120; 37146952; 37146780;
  37146608; 37146436; 37146264; 37146092; 37145920; 37145748; 37145576; 37145404; 37145232; 37145060; 37144888; 37144716; 37144544; 37144376; 37144204; 37144032; 37143860; 37143688; 37143516; 37143344;
  37143172; 37143000; 37142828; 37142656; 37142484; 37142312; 37142140; 37141968; 37141796; 37141624; 37141452; 37141276; 37141104; 37140932; 37140760; 37140588; 37140416; 37140244; 37140072; 37139900;
  37139728; 37139556; 37139384; 37139212; 37139040; 37138864; 37138692; 37138520; 37138348; 37138176; 37138004; 37137832; 37137660; 37137488; 37137312; 37137140; 37136968; 37136796; 37136624; 37136452;
  37136276; 37136104; 37135932; 37135760; 37135588; 37135416; 37135240; 37135068; 37134896; 37134724; 37134552; 37134376; 37134204; 37134032; 37133860; 37133684; 37133512; 37133340; 37133168; 37132996;
  37132820; 37132648; 37132476; 37132304; 37132128; 37131956; 37131784; 37131608; 37131436; 37131264; 37131092; 37130916; 37130744; 37130572; 37130396; 37130224; 37130052; 37129876; 37129704; 37129532;
  37129356; 37129184; 37129012; 37128836; 37128664; 37128492; 37128316; 37128144; 37127972; 37127796; 37127624; 37127448; 37127276; 37127104; 37126928; 37126756; 37126580; 37126408; 37126236; 37126060;
  37125888; 37125712; 37125540; 37125364; 37125192; 37125020; 37124844; 37124672; 37124496; 37124324; 37124148; 37123976; 37123800; 37123628; 37123452; 37123280; 37123104; 37122932; 37122756; 37122584;
  37122408; 37122236; 37122060; 37121888; 37121712; 37121540; 37121364; 37121192; 37121016; 37120844; 37120668; 37120492; 37120320; 37120144; 37119972; 37119796; 37119624; 37119448; 37119272; 37119100;
  37118924; 37118752; 37118576; 37118400; 37118228; 37118052; 37117880; 37117704; 37117528; 37117356; 37117180; 37117004; 37116832; 37116656; 37116480; 37116308; 37116132; 37115956; 37115784; 37115608;
  37115432; 37115260; 37115084; 37114908; 37114736; 37114560; 37114384; 37114208; 37114036; 37113860; 37113684; 37113512; 37113336; 37113160; 37112984; 37112812; 37112636; 37112460; 37112284; 37112112;
  37111936; 37111760; 37111584; 37111408; 37111236; 37111060; 37110884; 37110708; 37110532; 37110360; 37110184; 37110008; 37109832; 37109656; 37109484; 37109308; 37109132; 37108956; 37108780; 37108604;
  37108428; 37108256; 37108080; 37107904; 37107728; 37107552; 37107376; 37107200; 37107024; 37106848; 37106676; 37106500; 37106324; 37106148; 37105972; 37105796; 37105620; 37105444; 37105268; 37105092;
  37104916; 37104740; 37104564; 37104388; 37104212; 37104036; 37103860; 37103684; 37103508; 37103332; 37103156; 37102980; 37102804; 37102628; 37102452; 37102276; 37102100; 37101924; 37101748; 37101572;
  37101396; 37101220; 37101044; 37100868; 37100692; 37100516; 37100340; 37100164; 37099988; 37099812; 37099636; 37099460; 37099280; 37099104; 37098928; 37098752; 37098576; 37098400; 37098224; 37098048;
  37097872; 37097692; 37097516; 37097340; 37097164; 37096988; 37096812; 37096636; 37096456; 37096280; 37096104; 37095928; 37095752; 37095572; 37095396; 37095220; 37095044; 37094868; 37094688; 37094512;
  37094336; 37094160; 37093984; 37093804; 37093628; 37093452; 37093276; 37093096; 37092920; 37092744; 37092568; 37092388; 37092212; 37092036; 37091860; 37091680; 37091504; 37091328; 37091148; 37090972;
  37090796; 37090616; 37090440; 37090264; 37090084; 37089908; 37089732; 37089552; 37089376; 37089200; 37089020; 37088844; 37088668; 37088488; 37088312; 37088136; 37087956; 37087780; 37087600; 37087424;
  37087248; 37087068; 37086892; 37086712; 37086536; 37086360; 37086180; 37086004; 37085824; 37085648; 37085468; 37085292; 37085112; 37084936; 37084760; 37084580; 37084404; 37084224; 37084048; 37083868;
  37083692; 37083512; 37083336; 37083156; 37082980; 37082800; 37082624; 37082444; 37082268; 37082088; 37081908; 37081732; 37081552; 37081376; 37081196; 37081020; 37080840; 37080664; 37080484; 37080304;
  37080128; 37079948; 37079772; 37079592; 37079412; 37079236; 37079056; 37078880; 37078700; 37078520; 37078344; 37078164; 37077988; 37077808; 37077628; 37077452; 37077272; 37077092; 37076916; 37076736;
  37076556; 37076380; 37076200; 37076020; 37075844; 37075664; 37075484; 37075304; 37075128; 37074948; 37074768; 37074592; 37074412; 37074232; 37074052; 37073876; 37073696; 37073516; 37073336; 37073160;
  37072980; 37072800; 37072620; 37072440; 37072264; 37072084; 37071904; 37071724; 37071548; 37071368; 37071188; 37071008; 37070828; 37070648; 37070472; 37070292; 37070112; 37069932; 37069752; 37069572;
  37069396; 37069216; 37069036; 37068856; 37068676; 37068496; 37068316; 37068136; 37067960; 37067780; 37067600; 37067420; 37067240; 37067060; 37066880; 37066700; 37066520; 37066340; 37066160; 37065980;
  37065800; 37065620; 37065440; 37065264; 37065084; 37064904; 37064724; 37064544; 37064364; 37064184; 37064004; 37063824; 37063644; 37063464; 37063284; 37063104; 37062924; 37062744; 37062560; 37062380;
  37062200; 37062020; 37061840; 37061660; 37061480; 37061300; 37061120; 37060940; 37060760; 37060580; 37060400; 37060220; 37060040; 37059856; 37059676; 37059496; 37059316; 37059136; 37058956; 37058776;
  37058596; 37058412; 37058232; 37058052; 37057872; 37057692; 37057512; 37057328; 37057148; 37056968; 37056788; 37056608; 37056428; 37056244; 37056064; 37055884; 37055704; 37055520; 37055340; 37055160;
  37054980; 37054800; 37054616; 37054436; 37054256; 37054076; 37053892; 37053712; 37053532; 37053348; 37053168; 37052988; 37052808; 37052624; 37052444; 37052264; 37052080; 37051900; 37051720; 37051536;
  37051356; 37051176; 37050996; 37050812; 37050632; 37050448; 37050268; 37050088; 37049904; 37049724; 37049544; 37049360; 37049180; 37049000; 37048816; 37048636; 37048452; 37048272; 37048088; 37047908;
  37047728; 37047544; 37047364; 37047180; 37047000; 37046816; 37046636; 37046456; 37046272; 37046092; 37045908; 37045728; 37045544; 37045364; 37045180; 37045000; 37044816; 37044636; 37044452; 37044272;
  37044088; 37043908; 37043724; 37043544; 37043360; 37043180; 37042996; 37042816; 37042632; 37042448; 37042268; 37042084; 37041904; 37041720; 37041540; 37041356; 37041172; 37040992; 37040808; 37040628;
  37040444; 37040260; 37040080; 37039896; 37039712; 37039532; 37039348; 37039168; 37038984; 37038800; 37038620; 37038436; 37038252; 37038072; 37037888; 37037704; 37037520; 37037340; 37037156; 37036972].
Definition values_08 : list Z := [
  37036792; 37036608; 37036424; 37036244; 37036060; 37035876; 37035692; 37035512; 37035328; 37035144; 37034960; 37034780; 37034596; 37034412; 37034228; 37034048; 37033864; 37033680; 37033496; 37033312;
  37033132; 37032948; 37032764; 37032580; 37032396; 37032212; 37032032; 37031848; 37031664; 37031480; 37031296; 37031112; 37030932; 37030748; 37030564; 37030380; 37030196; 37030012; 37029828; 37029644;
  37029460; 37029280; 37029096; 37028912; 37028728; 37028544; 37028360; 37028176; 37027992; 37027808; 37027624; 37027440; 37027256; 37027072; 37026888; 37026704; 37026520; 37026336; 37026152; 37025968;
  37025784; 37025600; 37025416; 37025232; 37025048; 37024864; 37024680; 37024496; 37024312; 37024128; 37023944; 37023760; 37023576; 37023392; 37023208; 37023024; 37022840; 37022656; 37022472; 37022288;
  37022100; 37021916; 37021732; 37021548; 37021364; 37021180; 37020996; 37020812; 37020628; 37020440; 37020256; 37020072; 37019888; 37019704; 37019520; 37019332; 37019148; 37018964; 37018780; 37018596;
  37018412; 37018224; 37018040; 37017856; 37017672; 37017488; 37017300; 37017116; 37016932; 37016748; 37016560; 37016376; 37016192; 37016008; 37015820; 37015636; 37015452; 37015268; 37015080; 37014896;
  37014712; 37014524; 37014340; 37014156; 37013968; 37013784; 37013600; 37013412; 37013228; 37013044; 37012856; 37012672; 37012488; 37012300; 37012116; 37011932; 37011744; 37011560; 37011376; 37011188;
  37011004; 37010816; 37010632; 37010448; 37010260; 37010076; 37009888; 37009704; 37009520; 37009332; 37009148; 37008960; 37008776; 37008588; 37008404; 37008216; 37008032; 37007844; 37007660; 37007472;
  37007288; 37007100; 37006916; 37006728; 37006544; 37006356; 37006172; 37005984; 37005800; 37005612; 37005428; 37005240; 37005056; 37004868; 37004684; 37004496; 37004308; 37004124; 37003936; 37003752;
  37003564; 37003380; 37003192; 37003004; 37002820; 37002632; 37002448; 37002260; 37002072; 37001888; 37001700; 37001512; 37001328; 37001140; 37000952; 37000768; 37000580; 37000392; 37000208; 37000020;
  36999832; 36999648; 36999460; 36999272; 36999088; 36998900; 36998712; 36998524; 36998340; 36998152; 36997964; 36997776; 36997592; 36997404; 36997216; 36997028; 36996844; 36996656; 36996468; 36996280;
  36996096; 36995908; 36995720; 36995532; 36995344; 36995160; 36994972; 36994784; 36994596; 36994408; 36994220; 36994036; 36993848; 36993660; 36993472; 36993284; 36993096; 36992908; 36992720; 36992536;
  36992348; 36992160; 36991972; 36991784; 36991596; 36991408; 36991220; 36991032; 36990844; 36990656; 36990472; 36990284; 36990096; 36989908; 36989720; 36989532; 36989344; 36989156; 36988968; 36988780;
  36988592; 36988404; 36988216; 36988028; 36987840; 36987652; 36987464; 36987276; 36987088; 36986900; 36986712; 36986524; 36986336; 36986148; 36985956; 36985768; 36985580; 36985392; 36985204; 36985016;
  36984828; 36984640; 36984452; 36984264; 36984076; 36983884; 36983696; 36983508; 36983320; 36983132; 36982944; 36982756; 36982564; 36982376; 36982188; 36982000; 36981812; 36981624; 36981432; 36981244;
  36981056; 36980868; 36980680; 36980488; 36980300; 36980112; 36979924; 36979736; 36979544; 36979356; 36979168; 36978980; 36978788; 36978600; 36978412; 36978224; 36978032; 36977844; 36977656; 36977464;
  36977276; 36977088; 36976896; 36976708; 36976520; 36976332; 36976140; 36975952; 36975764; 36975572; 36975384; 36975192; 36975004; 36974816; 36974624; 36974436; 36974248; 36974056; 36973868; 36973676;
  36973488; 36973300; 36973108; 36972920; 36972728; 36972540; 36972352; 36972160; 36971972; 36971780; 36971592; 36971400; 36971212; 36971020; 36970832; 36970640; 36970452; 36970260; 36970072; 36969880;
  36969692; 36969500; 36969312; 36969120; 36968932; 36968740; 36968552; 36968360; 36968172; 36967980; 36967792; 36967600; 36967412; 36967220; 36967028; 36966840; 36966648; 36966460; 36966268; 36966076;
  36965888; 36965696; 36965508; 36965316; 36965124; 36964936; 36964744; 36964552; 36964364; 36964172; 36963980; 36963792; 36963600; 36963408; 36963220; 36963028; 36962836; 36962648; 36962456; 36962264;
  36962076; 36961884; 36961692; 36961500; 36961312; 36961120; 36960928; 36960736; 36960548; 36960356; 36960164; 36959972; 36959784; 36959592; 36959400; 36959208; 36959020; 36958828; 36958636; 36958444;
  36958252; 36958060; 36957872; 36957680; 36957488; 36957296; 36957104; 36956912; 36956724; 36956532; 36956340; 36956148; 36955956; 36955764; 36955572; 36955380; 36955192; 36955000; 36954808; 36954616;
  36954424; 36954232; 36954040; 36953848; 36953656; 36953464; 36953272; 36953080; 36952888; 36952696; 36952504; 36952312; 36952120; 36951928; 36951736; 36951544; 36951352; 36951160; 36950968; 36950776;
  36950584; 36950392; 36950200; 36950008; 36949816; 36949624; 36949432; 36949240; 36949048; 36948856; 36948664; 36948472; 36948280; 36948084; 36947892; 36947700; 36947508; 36947316; 36947124; 36946932;
  36946740; 36946548; 36946352; 36946160; 36945968; 36945776; 36945584; 36945392; 36945196; 36945004; 36944812; 36944620; 36944428; 36944232; 36944040; 36943848; 36943656; 36943464; 36943268; 36943076;
  36942884; 36942692; 36942496; 36942304; 36942112; 36941920; 36941724; 36941532; 36941340; 36941144; 36940952; 36940760; 36940568; 36940372; 36940180; 36939988; 36939792; 36939600; 36939408; 36939212;
  36939020; 36938828; 36938632; 36938440; 36938248; 36938052; 36937860; 36937664; 36937472; 36937280; 36937084; 36936892; 36936696; 36936504; 36936312; 36936116; 36935924; 36935728; 36935536; 36935340;
  36935148; 36934952; 36934760; 36934568; 36934372; 36934180; 36933984; 36933792; 36933596; 36933404; 36933208; 36933016; 36932820; 36932628; 36932432; 36932236; 36932044; 36931848; 36931656; 36931460;
  36931268; 36931072; 36930880; 36930684; 36930488; 36930296; 36930100; 36929908; 36929712; 36929516; 36929324; 36929128; 36928936; 36928740; 36928544; 36928352; 36928156; 36927960; 36927768; 36927572;
  36927376; 36927184; 36926988; 36926792; 36926600; 36926404; 36926208; 36926012; 36925820; 36925624; 36925428; 36925236; 36925040; 36924844; 36924648; 36924456; 36924260; 36924064; 36923868; 36923676;
  36923480; 36923284; 36923088; 36922892; 36922700; 36922504; 36922308; 36922112; 36921916; 36921724; 36921528; 36921332; 36921136; 36920940; 36920744; 36920548; 36920356; 36920160; 36919964; 36919768;
  36919572; 36919376; 36919180; 36918984; 36918788; 36918596; 36918400; 36918204; 36918008; 36917812; 36917616; 36917420; 36917224; 36917028; 36916832; 36916636; 36916440; 36916244; 36916048; 36915852;
  36915656; 36915460; 36915264; 36915068; 36914872; 36914676; 36914480; 36914284; 36914088; 36913892; 36913696; 36913500; 36913304; 36913108; 36912912; 36912712; 36912516; 36912320; 36912124; 36911928;
  36911732; 36911536; 36911340; 36911144; 36910944; 36910748; 36910552; 36910356; 36910160; 36909964; 36909768; 36909568; 36909372; 36909176; 36908980; 36908784; 36908584; 36908388; 36908192; 36907996;
  36907800; 36907600; 36907404; 36907208; 36907012; 36906812; 36906616; 36906420; 36906224; 36906024; 36905828; 36905632; 36905436; 36905236; 36905040; 36904844; 36904644; 36904448; 36904252; 36904052;
  36903856; 36903660; 36903460; 36903264; 36903068; 36902868; 36902672; 36902476; 36902276; 36902080; 36901880; 36901684; 36901488; 36901288; 36901092; 36900892; 36900696; 36900500; 36900300; 36900104;
  36899904; 36899708; 36899508; 36899312; 36899112; 36898916; 36898716; 36898520; 36898324; 36898124; 36897928; 36897728; 36897532; 36897332; 36897132; 36896936; 36896736; 36896540; 36896340; 36896144;
  36895944; 36895748; 36895548; 36895352; 36895152; 36894952; 36894756; 36894556; 36894360; 36894160; 36893960; 36893764; 36893564; 36893364; 36893168; 36892968; 36892772; 36892572; 36892372; 36892176;
  36891976; 36891776; 36891580; 36891380; 36891180; 36890984; 36890784; 36890584; 36890384; 36890188; 36889988; 36889788; 36889588; 36889392; 36889192; 36888992; 36888792; 36888596; 36888396; 36888196;
  36887996; 36887800; 36887600; 36887400; 36887200; 36887000; 36886804; 36886604; 36886404; 36886204; 36886004; 36885804; 36885608; 36885408; 36885208; 36885008; 36884808; 36884608; 36884408; 36884208;
  36884012; 36883812; 36883612; 36883412; 36883212; 36883012; 36882812; 36882612; 36882412; 36882212; 36882012; 36881812; 36881612; 36881412; 36881212; 36881012; 36880812; 36880612; 36880412; 36880212;
  36880012; 36879812; 36879612; 36879412; 36879212; 36879012; 36878812; 36878612; 36878412; 36878212; 36878012; 36877812; 36877612; 36877412; 36877212; 36877012; 36876812; 36876608; 36876408; 36876208;
  36876008; 36875808; 36875608; 36875408; 36875208; 36875004; 36874804; 36874604; 36874404; 36874204; 36874004; 36873800; 36873600; 36873400; 36873200; 36873000; 36872796; 36872596; 36872396; 36872196;
  36871992; 36871792; 36871592; 36871392; 36871188; 36870988; 36870788; 36870588; 36870384; 36870184; 36869984; 36869780; 36869580; 36869380; 36869176; 36868976; 36868776; 36868572; 36868372; 36868172;
  36867968; 36867768; 36867568; 36867364; 36867164; 36866960; 36866760; 36866560; 36866356; 36866156; 36865952; 36865752; 36865552; 36865348; 36865148; 36864944; 36864744; 36864540; 36864340; 36864136;
  36863936; 36863736; 36863532; 36863332; 36863128; 36862928; 36862724; 36862524; 36862320; 36862120; 36861916; 36861712; 36861512; 36861308; 36861108; 36860904; 36860704; 36860500; 36860300; 36860096;
  36859892; 36859692; 36859488; 36859288; 36859084; 36858880; 36858680; 36858476; 36858272; 36858072; 36857868; 36857664; 36857464; 36857260; 36857056; 36856856; 36856652; 36856448; 36856248; 36856044;
  36855840; 36855640; 36855436; 36855232; 36855028; 36854828; 36854624; 36854420; 36854216; 36854016; 36853812; 36853608; 36853404; 36853204; 36853000; 36852796; 36852592; 36852388; 36852188; 36851984;
  36851780; 36851576; 36851372; 36851168; 36850968; 36850764; 36850560; 36850356; 36850152; 36849948; 36849744; 36849540; 36849340; 36849136; 36848932; 36848728; 36848524; 36848320; 36848116; 36847912;
  36847708; 36847504; 36847300; 36847096; 36846892; 36846688; 36846484; 36846280; 36846076; 36845872; 36845668; 36845464; 36845260; 36845056; 36844852; 36844648; 36844444; 36844240; 36844036; 36843832].
Definition values_09 : list Z := [
  36843628; 36843424; 36843220; 36843016; 36842812; 36842608; 36842404; 36842200; 36841992; 36841788; 36841584; 36841380; 36841176; 36840972; 36840768; 36840560; 36840356; 36840152; 36839948; 36839744;
  36839540; 36839332; 36839128; 36838924; 36838720; 36838516; 36838308; 36838104; 36837900; 36837696; 36837488; 36837284; 36837080; 36836876; 36836668; 36836464; 36836260; 36836056; 36835848; 36835644;
  36835440; 36835232; 36835028; 36834824; 36834616; 36834412; 36834208; 36834000; 36833796; 36833592; 36833384; 36833180; 36832976; 36832768; 36832564; 36832356; 36832152; 36831948; 36831740; 36831536;
  36831328; 36831124; 36830920; 36830712; 36830508; 36830300; 36830096; 36829888; 36829684; 36829476; 36829272; 36829064; 36828860; 36828652; 36828448; 36828240; 36828036; 36827828; 36827624; 36827416;
  36827212; 36827004; 36826800; 36826592; 36826384; 36826180; 36825972; 36825768; 36825560; 36825356; 36825148; 36824940; 36824736; 36824528; 36824320; 36824116; 36823908; 36823700; 36823496; 36823288;
  36823084; 36822876; 36822668; 36822460; 36822256; 36822048; 36821840; 36821636; 36821428; 36821220; 36821016; 36820808; 36820600; 36820392; 36820188; 36819980; 36819772; 36819564; 36819356; 36819152;
  36818944; 36818736; 36818528; 36818324; 36818116; 36817908; 36817700; 36817492; 36817284; 36817080; 36816872; 36816664; 36816456; 36816248; 36816040; 36815832; 36815624; 36815420; 36815212; 36815004;
  36814796; 36814588; 36814380; 36814172; 36813964; 36813756; 36813548; 36813340; 36813132; 36812924; 36812716; 36812508; 36812300; 36812092; 36811884; 36811676; 36811468; 36811260; 36811052; 36810844;
  36810636; 36810428; 36810220; 36810012; 36809804; 36809596; 36809388; 36809180; 36808972; 36808764; 36808556; 36808348; 36808136; 36807928; 36807720; 36807512; 36807304; 36807096; 36806888; 36806676;
  36806468; 36806260; 36806052; 36805844; 36805636; 36805424; 36805216; 36805008; 36804800; 36804592; 36804380; 36804172; 36803964; 36803756; 36803544; 36803336; 36803128; 36802920; 36802708; 36802500;
  36802292; 36802084; 36801872; 36801664; 36801456; 36801244; 36801036; 36800828; 36800616; 36800408; 36800200; 36799988; 36799780; 36799572; 36799360; 36799152; 36798940; 36798732; 36798524; 36798312;
  36798104; 36797892; 36797684; 36797476; 36797264; 36797056; 36796844; 36796636; 36796424; 36796216; 36796004; 36795796; 36795584; 36795376; 36795164; 36794956; 36794744; 36794536; 36794324; 36794116;
  36793904; 36793696; 36793484; 36793276; 36793064; 36792856; 36792644; 36792432; 36792224; 36792012; 36791804; 36791592; 36791380; 36791172; 36790960; 36790752; 36790540; 36790328; 36790120; 36789908;
  36789696; 36789488; 36789276; 36789064; 36788856; 36788644; 36788432; 36788220; 36788012; 36787800; 36787588; 36787380; 36787168; 36786956; 36786744; 36786536; 36786324; 36786112; 36785900; 36785692;
  36785480; 36785268; 36785056; 36784844; 36784636; 36784424; 36784212; 36784000; 36783788; 36783576; 36783364; 36783156; 36782944; 36782732; 36782520; 36782308; 36782096; 36781884; 36781672; 36781464;
  36781252; 36781040; 36780828; 36780616; 36780404; 36780192; 36779980; 36779768; 36779556; 36779344; 36779132; 36778920; 36778708; 36778496; 36778284; 36778072; 36777860; 36777648; 36777436; 36777224;
  36777012; 36776800; 36776588; 36776376; 36776164; 36775952; 36775740; 36775524; 36775312; 36775100; 36774888; 36774676; 36774464; 36774252; 36774040; 36773824; 36773612; 36773400; 36773188; 36772976;
  36772764; 36772552; 36772336; 36772124; 36771912; 36771700; 36771488; 36771272; 36771060; 36770848; 36770636; 36770420; 36770208; 36769996; 36769784; 36769568; 36769356; 36769144; 36768928; 36768716;
  36768504; 36768292; 36768076; 36767864; 36767652; 36767436; 36767224; 36767012; 36766796; 36766584; 36766368; 36766156; 36765944; 36765728; 36765516; 36765304; 36765088; 36764876; 36764660; 36764448;
  36764232; 36764020; 36763808; 36763592; 36763380; 36763164; 36762952; 36762736; 36762524; 36762308; 36762096; 36761880; 36761668; 36761452; 36761240; 36761024; 36760812; 36760596; 36760384; 36760168;
  36759952; 36759740; 36759524; 36759312; 36759096; 36758880; 36758668; 36758452; 36758240; 36758024; 36757808; 36757596; 36757380; 36757164; 36756952; 36756736; 36756520; 36756308; 36756092; 36755876;
  36755664; 36755448; 36755232; 36755020; 36754804; 36754588; 36754372; 36754160; 36753944; 36753728; 36753512; 36753300; 36753084; 36752868; 36752652; 36752436; 36752224; 36752008; 36751792; 36751576;
  36751360; 36751148; 36750932; 36750716; 36750500; 36750284; 36750068; 36749852; 36749640; 36749424; 36749208; 36748992; 36748776; 36748560; 36748344; 36748128; 36747912; 36747696; 36747480; 36747264;
  36747048; 36746836; 36746620; 36746404; 36746188; 36745972; 36745756; 36745540; 36745324; 36745108; 36744892; 36744672; 36744456; 36744240; 36744024; 36743808; 36743592; 36743376; 36743160; 36742944;
  36742728; 36742512; 36742296; 36742080; 36741860; 36741644; 36741428; 36741212; 36740996; 36740780; 36740564; 36740344; 36740128; 36739912; 36739696; 36739480; 36739260; 36739044; 36738828; 36738612;
  36738396; 36738176; 36737960; 36737744; 36737528; 36737308; 36737092; 36736876; 36736660; 36736440; 36736224; 36736008; 36735788; 36735572; 36735356; 36735136; 36734920; 36734704; 36734484; 36734268;
  36734052; 36733832; 36733616; 36733400; 36733180; 36732964; 36732744; 36732528; 36732308; 36732092; 36731876; 36731656; 36731440; 36731220; 36731004; 36730784; 36730568; 36730348; 36730132; 36729912;
  36729696; 36729476; 36729260; 36729040; 36728824; 36728604; 36728388; 36728168; 36727952; 36727732; 36727516; 36727296; 36727076; 36726860; 36726640; 36726424; 36726204; 36725984; 36725768; 36725548;
  36725332; 36725112; 36724892; 36724676; 36724456; 36724236; 36724020; 36723800; 36723580; 36723364; 36723144; 36722924; 36722704; 36722488; 36722268; 36722048; 36721832; 36721612; 36721392; 36721172;
  36720952; 36720736; 36720516; 36720296; 36720076; 36719860; 36719640; 36719420; 36719200; 36718980; 36718760; 36718544; 36718324; 36718104; 36717884; 36717664; 36717444; 36717224; 36717004; 36716788;
  36716568; 36716348; 36716128; 36715908; 36715688; 36715468; 36715248; 36715028; 36714808; 36714588; 36714368; 36714148; 36713928; 36713708; 36713488; 36713268; 36713048; 36712828; 36712608; 36712388;
  36712168; 36711948; 36711728; 36711508; 36711288; 36711068; 36710848; 36710628; 36710404; 36710184; 36709964; 36709744; 36709524; 36709304; 36709084; 36708864; 36708640; 36708420; 36708200; 36707980;
  36707760; 36707540; 36707316; 36707096; 36706876; 36706656; 36706432; 36706212; 36705992; 36705772; 36705548; 36705328; 36705108; 36704888; 36704664; 36704444; 36704224; 36704000; 36703780; 36703560;
  36703340; 36703116; 36702896; 36702676; 36702452; 36702232; 36702008; 36701788; 36701568; 36701344; 36701124; 36700904; 36700680; 36700460; 36700236; 36700016; 36699792; 36699572; 36699352; 36699128;
  36698908; 36698684; 36698464; 36698240; 36698020; 36697796; 36697576; 36697352; 36697132; 36696908; 36696688; 36696464; 36696244; 36696020; 36695796; 36695576; 36695352; 36695132; 36694908; 36694684;
  36694464; 36694240; 36694020; 36693796; 36693572; 36693352; 36693128; 36692904; 36692684; 36692460; 36692236; 36692016; 36691792; 36691568; 36691348; 36691124; 36690900; 36690680; 36690456; 36690232;
  36690008; 36689788; 36689564; 36689340; 36689116; 36688892; 36688672; 36688448; 36688224; 36688000; 36687776; 36687556; 36687332; 36687108; 36686884; 36686660; 36686436; 36686216; 36685992; 36685768;
  36685544; 36685320; 36685096; 36684872; 36684648; 36684424; 36684200; 36683980; 36683756; 36683532; 36683308; 36683084; 36682860; 36682636; 36682412; 36682188; 36681964; 36681740; 36681516; 36681292;
  36681068; 36680844; 36680620; 36680396; 36680168; 36679944; 36679720; 36679496; 36679272; 36679048; 36678824; 36678600; 36678376; 36678152; 36677924; 36677700; 36677476; 36677252; 36677028; 36676804;
  36676580; 36676352; 36676128; 36675904; 36675680; 36675456; 36675228; 36675004; 36674780; 36674556; 36674328; 36674104; 36673880; 36673656; 36673428; 36673204; 36672980; 36672756; 36672528; 36672304;
  36672080; 36671852; 36671628; 36671404; 36671176; 36670952; 36670728; 36670500; 36670276; 36670048; 36669824; 36669600; 36669372; 36669148; 36668920; 36668696; 36668468; 36668244; 36668020; 36667792;
  36667568; 36667340; 36667116; 36666888; 36666664; 36666436; 36666212; 36665984; 36665760; 36665532; 36665308; 36665080; 36664856; 36664628; 36664400; 36664176; 36663948; 36663724; 36663496; 36663272;
  36663044; 36662816; 36662592; 36662364; 36662136; 36661912; 36661684; 36661456; 36661232; 36661004; 36660776; 36660552; 36660324; 36660096; 36659872; 36659644; 36659416; 36659188; 36658964; 36658736;
  36658508; 36658280; 36658056; 36657828; 36657600; 36657372; 36657144; 36656920; 36656692; 36656464; 36656236; 36656008; 36655784; 36655556; 36655328; 36655100; 36654872; 36654644; 36654416; 36654188;
  36653964; 36653736; 36653508; 36653280; 36653052; 36652824; 36652596; 36652368; 36652140; 36651912; 36651684; 36651456; 36651228; 36651000; 36650772; 36650544; 36650316; 36650088; 36649860; 36649632;
  36649404; 36649176; 36648948; 36648720; 36648492; 36648264; 36648032; 36647804; 36647576; 36647348; 36647120; 36646892; 36646664; 36646436; 36646204; 36645976; 36645748; 36645520; 36645292; 36645064;
  36644832; 36644604; 36644376; 36644148; 36643916; 36643688; 36643460; 36643232; 36643004; 36642772; 36642544; 36642316; 36642084; 36641856; 36641628; 36641396; 36641168; 36640940; 36640712; 36640480;
  36640252; 36640020; 36639792; 36639564; 36639332; 36639104; 36638876; 36638644; 36638416; 36638184; 36637956; 36637724; 36637496; 36637268; 36637036; 36636808; 36636576; 36636348; 36636116; 36635888;
  36635656; 36635428; 36635196; 36634968; 36634736; 36634508; 36634276; 36634048; 36633816; 36633584; 36633356; 36633124; 36632896; 36632664; 36632432; 36632204; 36631972; 36631744; 36631512; 36631280;
  36631052; 36630820; 36630588; 36630360; 36630128; 36629896; 36629668; 36629436; 36629204; 36628976; 36628744; 36628512; 36628280; 36628052; 36627820; 36627588; 36627356; 36627128; 36626896; 36626664].
Definition values_10 : list Z := [
  36626432; 36626200; 36625968; 36625740; 36625508; 36625276; 36625044; 36624812; 36624580; 36624352; 36624120; 36623888; 36623656; 36623424; 36623192; 36622960; 36622728; 36622496; 36622264; 36622032;
  36621800; 36621572; 36621340; 36621108; 36620876; 36620644; 36620412; 36620180; 36619948; 36619716; 36619484; 36619248; 36619016; 36618784; 36618552; 36618320; 36618088; 36617856; 36617624; 36617392;
  36617160; 36616928; 36616696; 36616460; 36616228; 36615996; 36615764; 36615532; 36615300; 36615064; 36614832; 36614600; 36614368; 36614136; 36613900; 36613668; 36613436; 36613204; 36612972; 36612736;
  36612504; 36612272; 36612036; 36611804; 36611572; 36611340; 36611104; 36610872; 36610640; 36610404; 36610172; 36609940; 36609704; 36609472; 36609240; 36609004; 36608772; 36608536; 36608304; 36608072;
  36607836; 36607604; 36607368; 36607136; 36606900; 36606668; 36606436; 36606200; 36605968; 36605732; 36605500; 36605264; 36605032; 36604796; 36604564; 36604328; 36604092; 36603860; 36603624; 36603392;
  36603156; 36602924; 36602688; 36602452; 36602220; 36601984; 36601752; 36601516; 36601280; 36601048; 36600812; 36600576; 36600344; 36600108; 36599872; 36599640; 36599404; 36599168; 36598936; 36598700;
  36598464; 36598228; 36597996; 36597760; 36597524; 36597288; 36597056; 36596820; 36596584; 36596348; 36596112; 36595880; 36595644; 36595408; 36595172; 36594936; 36594700; 36594468; 36594232; 36593996;
  36593760; 36593524; 36593288; 36593052; 36592816; 36592580; 36592344; 36592108; 36591876; 36591640; 36591404; 36591168; 36590932; 36590696; 36590460; 36590224; 36589988; 36589752; 36589516; 36589280;
  36589044; 36588804; 36588568; 36588332; 36588096; 36587860; 36587624; 36587388; 36587152; 36586916; 36586680; 36586440; 36586204; 36585968; 36585732; 36585496; 36585260; 36585024; 36584784; 36584548;
  36584312; 36584076; 36583840; 36583600; 36583364; 36583128; 36582892; 36582652; 36582416; 36582180; 36581940; 36581704; 36581468; 36581232; 36580992; 36580756; 36580520; 36580280; 36580044; 36579808;
  36579568; 36579332; 36579092; 36578856; 36578620; 36578380; 36578144; 36577904; 36577668; 36577432; 36577192; 36576956; 36576716; 36576480; 36576240; 36576004; 36575764; 36575528; 36575288; 36575052;
  36574812; 36574576; 36574336; 36574100; 36573860; 36573620; 36573384; 36573144; 36572908; 36572668; 36572432; 36572192; 36571952; 36571716; 36571476; 36571236; 36571000; 36570760; 36570520; 36570284;
  36570044; 36569804; 36569568; 36569328; 36569088; 36568852; 36568612; 36568372; 36568132; 36567896; 36567656; 36567416; 36567176; 36566936; 36566700; 36566460; 36566220; 36565980; 36565740; 36565500;
  36565264; 36565024; 36564784; 36564544; 36564304; 36564064; 36563824; 36563584; 36563348; 36563108; 36562868; 36562628; 36562388; 36562148; 36561908; 36561668; 36561428; 36561188; 36560948; 36560708;
  36560468; 36560228; 36559988; 36559748; 36559508; 36559268; 36559028; 36558788; 36558548; 36558304; 36558064; 36557824; 36557584; 36557344; 36557104; 36556864; 36556624; 36556380; 36556140; 36555900;
  36555660; 36555420; 36555180; 36554936; 36554696; 36554456; 36554216; 36553976; 36553732; 36553492; 36553252; 36553012; 36552768; 36552528; 36552288; 36552044; 36551804; 36551564; 36551320; 36551080;
  36550840; 36550596; 36550356; 36550116; 36549872; 36549632; 36549392; 36549148; 36548908; 36548664; 36548424; 36548180; 36547940; 36547700; 36547456; 36547216; 36546972; 36546732; 36546488; 36546248;
  36546004; 36545764; 36545520; 36545280; 36545036; 36544796; 36544552; 36544308; 36544068; 36543824; 36543584; 36543340; 36543096; 36542856; 36542612; 36542372; 36542128; 36541884; 36541644; 36541400;
  36541156; 36540916; 36540672; 36540428; 36540188; 36539944; 36539700; 36539456; 36539216; 36538972; 36538728; 36538484; 36538244; 36538000; 36537756; 36537512; 36537268; 36537028; 36536784; 36536540;
  36536296; 36536052; 36535808; 36535564; 36535324; 36535080; 36534836; 36534592; 36534348; 36534104; 36533860; 36533616; 36533372; 36533128; 36532884; 36532640; 36532396; 36532152; 36531908; 36531664;
  36531420; 36531176; 36530932; 36530688; 36530444; 36530200; 36529956; 36529712; 36529468; 36529224; 36528980; 36528736; 36528492; 36528248; 36528000; 36527756; 36527512; 36527268; 36527024; 36526780;
  36526532; 36526288; 36526044; 36525800; 36525556; 36525308; 36525064; 36524820; 36524576; 36524328; 36524084; 36523840; 36523596; 36523348; 36523104; 36522860; 36522612; 36522368; 36522124; 36521876;
  36521632; 36521388; 36521140; 36520896; 36520652; 36520404; 36520160; 36519912; 36519668; 36519424; 36519176; 36518932; 36518684; 36518440; 36518192; 36517948; 36517700; 36517456; 36517208; 36516964;
  36516716; 36516472; 36516224; 36515980; 36515732; 36515488; 36515240; 36514992; 36514748; 36514500; 36514256; 36514008; 36513760; 36513516; 36513268; 36513020; 36512776; 36512528; 36512280; 36512036;
  36511788; 36511540; 36511296; 36511048; 36510800; 36510552; 36510308; 36510060; 36509812; 36509564; 36509320; 36509072; 36508824; 36508576; 36508328; 36508084; 36507836; 36507588; 36507340; 36507092;
  36506844; 36506596; 36506352; 36506104; 36505856; 36505608; 36505360; 36505112; 36504864; 36504616; 36504368; 36504120; 36503872; 36503624; 36503376; 36503128; 36502880; 36502632; 36502384; 36502136;
  36501888; 36501640; 36501392; 36501144; 36500896; 36500648; 36500400; 36500152; 36499900; 36499652; 36499404; 36499156; 36498908; 36498660; 36498412; 36498160; 36497912; 36497664; 36497416; 36497168;
  36496916; 36496668; 36496420; 36496172; 36495920; 36495672; 36495424; 36495176; 36494924; 36494676; 36494428; 36494176; 36493928; 36493680; 36493428; 36493180; 36492932; 36492680; 36492432; 36492184;
  36491932; 36491684; 36491432; 36491184; 36490936; 36490684; 36490436; 36490184; 36489936; 36489684; 36489436; 36489184; 36488936; 36488684; 36488436; 36488184; 36487936; 36487684; 36487436; 36487184;
  36486936; 36486684; 36486432; 36486184; 36485932; 36485684; 36485432; 36485180; 36484932; 36484680; 36484428; 36484180; 36483928; 36483676; 36483428; 36483176; 36482924; 36482672; 36482424; 36482172;
  36481920; 36481668; 36481420; 36481168; 36480916; 36480664; 36480416; 36480164; 36479912; 36479660; 36479408; 36479156; 36478908; 36478656; 36478404; 36478152; 36477900; 36477648; 36477396; 36477144;
  36476892; 36476640; 36476388; 36476140; 36475888; 36475636; 36475384; 36475132; 36474880; 36474628; 36474376; 36474124; 36473872; 36473616; 36473364; 36473112; 36472860; 36472608; 36472356; 36472104;
  36471852; 36471600; 36471348; 36471096; 36470840; 36470588; 36470336; 36470084; 36469832; 36469580; 36469324; 36469072; 36468820; 36468568; 36468312; 36468060; 36467808; 36467556; 36467300; 36467048;
  36466796; 36466544; 36466288; 36466036; 36465784; 36465528; 36465276; 36465024; 36464768; 36464516; 36464260; 36464008; 36463756; 36463500; 36463248; 36462992; 36462740; 36462488; 36462232; 36461980;
  36461724; 36461472; 36461216; 36460964; 36460708; 36460456; 36460200; 36459948; 36459692; 36459436; 36459184; 36458928; 36458676; 36458420; 36458168; 36457912; 36457656; 36457404; 36457148; 36456892;
  36456640; 36456384; 36456128; 36455876; 36455620; 36455364; 36455112; 36454856; 36454600; 36454344; 36454092; 36453836; 36453580; 36453324; 36453072; 36452816; 36452560; 36452304; 36452048; 36451796;
  36451540; 36451284; 36451028; 36450772; 36450516; 36450260; 36450004; 36449752; 36449496; 36449240; 36448984; 36448728; 36448472; 36448216; 36447960; 36447704; 36447448; 36447192; 36446936; 36446680;
  36446424; 36446168; 36445912; 36445656; 36445400; 36445144; 36444888; 36444632; 36444372; 36444116; 36443860; 36443604; 36443348; 36443092; 36442836; 36442576; 36442320; 36442064; 36441808; 36441552;
  36441296; 36441036; 36440780; 36440524; 36440268; 36440008; 36439752; 36439496; 36439240; 36438980; 36438724; 36438468; 36438208; 36437952; 36437696; 36437436; 36437180; 36436924; 36436664; 36436408;
  36436148; 36435892; 36435636; 36435376; 36435120; 36434860; 36434604; 36434344; 36434088; 36433828; 36433572; 36433312; 36433056; 36432796; 36432540; 36432280; 36432024; 36431764; 36431508; 36431248;
  36430988; 36430732; 36430472; 36430216; 36429956; 36429696; 36429440; 36429180; 36428920; 36428664; 36428404; 36428144; 36427888; 36427628; 36427368; 36427108; 36426852; 36426592; 36426332; 36426072;
  36425816; 36425556; 36425296; 36425036; 36424776; 36424520; 36424260; 36424000; 36423740; 36423480; 36423220; 36422960; 36422704; 36422444; 36422184; 36421924; 36421664; 36421404; 36421144; 36420884;
  36420624; 36420364; 36420104; 36419844; 36419584; 36419324; 36419064; 36418804; 36418544; 36418284; 36418024; 36417764; 36417504; 36417244; 36416984; 36416720; 36416460; 36416200; 36415940; 36415680;
  36415420; 36415160; 36414896; 36414636; 36414376; 36414116; 36413856; 36413592; 36413332; 36413072; 36412812; 36412548; 36412288; 36412028; 36411764; 36411504; 36411244; 36410984; 36410720; 36410460;
  36410196; 36409936; 36409676; 36409412; 36409152; 36408892; 36408628; 36408368; 36408104; 36407844; 36407580; 36407320; 36407060; 36406796; 36406536; 36406272; 36406012; 36405748; 36405484; 36405224;
  36404960; 36404700; 36404436; 36404176; 36403912; 36403652; 36403388; 36403124; 36402864; 36402600; 36402336; 36402076; 36401812; 36401548; 36401288; 36401024; 36400760; 36400500; 36400236; 36399972;
  36399708; 36399448; 36399184; 36398920; 36398656; 36398396; 36398132; 36397868; 36397604; 36397340; 36397076; 36396816; 36396552; 36396288; 36396024; 36395760; 36395496; 36395232; 36394968; 36394704;
  36394444; 36394180; 36393916; 36393652; 36393388; 36393124; 36392860; 36392596; 36392332; 36392068; 36391804; 36391540; 36391272; 36391008; 36390744; 36390480; 36390216; 36389952; 36389688; 36389424;
  36389160; 36388896; 36388628; 36388364; 36388100; 36387836; 36387572; 36387304; 36387040; 36386776; 36386512; 36386248; 36385980; 36385716; 36385452; 36385184; 36384920; 36384656; 36384392; 36384124;
  36383860; 36383596; 36383328; 36383064; 36382796; 36382532; 36382268; 36382000; 36381736; 36381468; 36381204; 36380940; 36380672; 36380408; 36380140; 36379876; 36379608; 36379344; 36379076; 36378812].
Definition values_11 : list Z := [
  36378544; 36378280; 36378012; 36377744; 36377480; 36377212; 36376948; 36376680; 36376412; 36376148; 36375880; 36375616; 36375348; 36375080; 36374816; 36374548; 36374280; 36374012; 36373748; 36373480;
  36373212; 36372948; 36372680; 36372412; 36372144; 36371876; 36371612; 36371344; 36371076; 36370808; 36370540; 36370276; 36370008; 36369740; 36369472; 36369204; 36368936; 36368668; 36368400; 36368132;
  36367864; 36367600; 36367332; 36367064; 36366796; 36366528; 36366260; 36365992; 36365724; 36365456; 36365188; 36364916; 36364648; 36364380; 36364112; 36363844; 36363576; 36363308; 36363040; 36362772;
  36362504; 36362232; 36361964; 36361696; 36361428; 36361160; 36360892; 36360620; 36360352; 36360084; 36359816; 36359544; 36359276; 36359008; 36358740; 36358468; 36358200; 36357932; 36357660; 36357392;
  36357124; 36356852; 36356584; 36356312; 36356044; 36355776; 36355504; 36355236; 36354964; 36354696; 36354428; 36354156; 36353888; 36353616; 36353348; 36353076; 36352808; 36352536; 36352268; 36351996;
  36351728; 36351456; 36351184; 36350916; 36350644; 36350376; 36350104; 36349832; 36349564; 36349292; 36349020; 36348752; 36348480; 36348208; 36347940; 36347668; 36347396; 36347128; 36346856; 36346584;
  36346312; 36346044; 36345772; 36345500; 36345228; 36344956; 36344688; 36344416; 36344144; 36343872; 36343600; 36343328; 36343056; 36342788; 36342516; 36342244; 36341972; 36341700; 36341428; 36341156;
  36340884; 36340612; 36340340; 36340068; 36339796; 36339524; 36339252; 36338980; 36338708; 36338436; 36338164; 36337892; 36337620; 36337344; 36337072; 36336800; 36336528; 36336256; 36335984; 36335712;
  36335436; 36335164; 36334892; 36334620; 36334348; 36334072; 36333800; 36333528; 36333256; 36332980; 36332708; 36332436; 36332160; 36331888; 36331616; 36331340; 36331068; 36330796; 36330520; 36330248;
  36329976; 36329700; 36329428; 36329152; 36328880; 36328608; 36328332; 36328060; 36327784; 36327512; 36327236; 36326964; 36326688; 36326416; 36326140; 36325868; 36325592; 36325316; 36325044; 36324768;
  36324496; 36324220; 36323944; 36323672; 36323396; 36323124; 36322848; 36322572; 36322300; 36322024; 36321748; 36321472; 36321200; 36320924; 36320648; 36320372; 36320100; 36319824; 36319548; 36319272;
  36318996; 36318724; 36318448; 36318172; 36317896; 36317620; 36317344; 36317068; 36316796; 36316520; 36316244; 36315968; 36315692; 36315416; 36315140; 36314864; 36314588; 36314312; 36314036; 36313760;
  36313484; 36313208; 36312932; 36312656; 36312380; 36312104; 36311828; 36311548; 36311272; 36310996; 36310720; 36310444; 36310168; 36309892; 36309612; 36309336; 36309060; 36308784; 36308508; 36308228;
  36307952; 36307676; 36307400; 36307120; 36306844; 36306568; 36306288; 36306012; 36305736; 36305456; 36305180; 36304904; 36304624; 36304348; 36304072; 36303792; 36303516; 36303236; 36302960; 36302680;
  36302404; 36302124; 36301848; 36301572; 36301292; 36301012; 36300736; 36300456; 36300180; 36299900; 36299624; 36299344; 36299068; 36298788; 36298508; 36298232; 36297952; 36297672; 36297396; 36297116;
  36296836; 36296560; 36296280; 36296000; 36295724; 36295444; 36295164; 36294884; 36294608; 36294328; 36294048; 36293768; 36293488; 36293212; 36292932; 36292652; 36292372; 36292092; 36291812; 36291532;
  36291256; 36290976; 36290696; 36290416; 36290136; 36289856; 36289576; 36289296; 36289016; 36288736; 36288456; 36288176; 36287896; 36287616; 36287336; 36287056; 36286776; 36286496; 36286212; 36285932;
  36285652; 36285372; 36285092; 36284812; 36284532; 36284248; 36283968; 36283688; 36283408; 36283128; 36282844; 36282564; 36282284; 36282004; 36281720; 36281440; 36281160; 36280876; 36280596; 36280316;
  36280032; 36279752; 36279472; 36279188; 36278908; 36278628; 36278344; 36278064; 36277780; 36277500; 36277216; 36276936; 36276652; 36276372; 36276088; 36275808; 36275524; 36275244; 36274960; 36274680;
  36274396; 36274116; 36273832; 36273548; 36273268; 36272984; 36272704; 36272420; 36272136; 36271856; 36271572; 36271288; 36271004; 36270724; 36270440; 36270156; 36269876; 36269592; 36269308; 36269024;
  36268740; 36268460; 36268176; 36267892; 36267608; 36267324; 36267040; 36266760; 36266476; 36266192; 36265908; 36265624; 36265340; 36265056; 36264772; 36264488; 36264204; 36263920; 36263636; 36263352;
  36263068; 36262784; 36262500; 36262216; 36261932; 36261648; 36261364; 36261080; 36260796; 36260508; 36260224; 36259940; 36259656; 36259372; 36259088; 36258800; 36258516; 36258232; 36257948; 36257664;
  36257376; 36257092; 36256808; 36256524; 36256236; 36255952; 36255668; 36255380; 36255096; 36254812; 36254524; 36254240; 36253952; 36253668; 36253384; 36253096; 36252812; 36252524; 36252240; 36251952;
  36251668; 36251380; 36251096; 36250808; 36250524; 36250236; 36249952; 36249664; 36249380; 36249092; 36248808; 36248520; 36248232; 36247948; 36247660; 36247372; 36247088; 36246800; 36246512; 36246228;
  36245940; 36245652; 36245364; 36245080; 36244792; 36244504; 36244216; 36243932; 36243644; 36243356; 36243068; 36242780; 36242492; 36242208; 36241920; 36241632; 36241344; 36241056; 36240768; 36240480;
  36240192; 36239904; 36239616; 36239328; 36239040; 36238752; 36238464; 36238176; 36237888; 36237600; 36237312; 36237024; 36236736; 36236448; 36236160; 36235872; 36235584; 36235292; 36235004; 36234716;
  36234428; 36234140; 36233852; 36233560; 36233272; 36232984; 36232696; 36232404; 36232116; 36231828; 36231540; 36231248; 36230960; 36230672; 36230380; 36230092; 36229800; 36229512; 36229224; 36228932;
  36228644; 36228352; 36228064; 36227776; 36227484; 36227196; 36226904; 36226616; 36226324; 36226036; 36225744; 36225456; 36225164; 36224872; 36224584; 36224292; 36224004; 36223712; 36223420; 36223132;
  36222840; 36222548; 36222260; 36221968; 36221676; 36221388; 36221096; 36220804; 36220512; 36220224; 36219932; 36219640; 36219348; 36219060; 36218768; 36218476; 36218184; 36217892; 36217600; 36217308;
  36217020; 36216728; 36216436; 36216144; 36215852; 36215560; 36215268; 36214976; 36214684; 36214392; 36214100; 36213808; 36213516; 36213224; 36212932; 36212640; 36212348; 36212056; 36211764; 36211468;
  36211176; 36210884; 36210592; 36210300; 36210008; 36209712; 36209420; 36209128; 36208836; 36208544; 36208248; 36207956; 36207664; 36207368; 36207076; 36206784; 36206492; 36206196; 36205904; 36205608;
  36205316; 36205024; 36204728; 36204436; 36204144; 36203848; 36203556; 36203260; 36202968; 36202672; 36202380; 36202084; 36201792; 36201496; 36201204; 36200908; 36200616; 36200320; 36200024; 36199732;
  36199436; 36199140; 36198848; 36198552; 36198260; 36197964; 36197668; 36197372; 36197080; 36196784; 36196488; 36196196; 36195900; 36195604; 36195308; 36195012; 36194720; 36194424; 36194128; 36193832;
  36193536; 36193240; 36192944; 36192652; 36192356; 36192060; 36191764; 36191468; 36191172; 36190876; 36190580; 36190284; 36189988; 36189692; 36189396; 36189100; 36188804; 36188508; 36188212; 36187916;
  36187616; 36187320; 36187024; 36186728; 36186432; 36186136; 36185840; 36185540; 36185244; 36184948; 36184652; 36184352; 36184056; 36183760; 36183464; 36183164; 36182868; 36182572; 36182272; 36181976;
  36181680; 36181380; 36181084; 36180788; 36180488; 36180192; 36179892; 36179596; 36179296; 36179000; 36178700; 36178404; 36178104; 36177808; 36177508; 36177212; 36176912; 36176616; 36176316; 36176020;
  36175720; 36175420; 36175124; 36174824; 36174524; 36174228; 36173928; 36173628; 36173332; 36173032; 36172732; 36172432; 36172136; 36171836; 36171536; 36171236; 36170936; 36170640; 36170340; 36170040;
  36169740; 36169440; 36169140; 36168840; 36168544; 36168244; 36167944; 36167644; 36167344; 36167044; 36166744; 36166444; 36166144; 36165844; 36165544; 36165244; 36164944; 36164644; 36164344; 36164040;
  36163740; 36163440; 36163140; 36162840; 36162540; 36162240; 36161936; 36161636; 36161336; 36161036; 36160736; 36160432; 36160132; 36159832; 36159528; 36159228; 36158928; 36158624; 36158324; 36158024;
  36157720; 36157420; 36157120; 36156816; 36156516; 36156212; 36155912; 36155612; 36155308; 36155008; 36154704; 36154404; 36154100; 36153800; 36153496; 36153192; 36152892; 36152588; 36152288; 36151984;
  36151680; 36151380; 36151076; 36150772; 36150472; 36150168; 36149864; 36149564; 36149260; 36148956; 36148652; 36148352; 36148048; 36147744; 36147440; 36147140; 36146836; 36146532; 36146228; 36145924;
  36145620; 36145316; 36145012; 36144712; 36144408; 36144104; 36143800; 36143496; 36143192; 36142888; 36142584; 36142280; 36141976; 36141672; 36141368; 36141060; 36140756; 36140452; 36140148; 36139844;
  36139540; 36139236; 36138932; 36138624; 36138320; 36138016; 36137712; 36137408; 36137100; 36136796; 36136492; 36136184; 36135880; 36135576; 36135272; 36134964; 36134660; 36134356; 36134048; 36133744;
  36133436; 36133132; 36132824; 36132520; 36132216; 36131908; 36131604; 36131296; 36130992; 36130684; 36130380; 36130072; 36129764; 36129460; 36129152; 36128848; 36128540; 36128232; 36127928; 36127620;
  36127316; 36127008; 36126700; 36126392; 36126088; 36125780; 36125472; 36125164; 36124860; 36124552; 36124244; 36123936; 36123628; 36123324; 36123016; 36122708; 36122400; 36122092; 36121784; 36121476;
  36121168; 36120860; 36120552; 36120248; 36119940; 36119632; 36119324; 36119016; 36118704; 36118396; 36118088; 36117780; 36117472; 36117164; 36116856; 36116548; 36116240; 36115932; 36115620; 36115312;
  36115004; 36114696; 36114388; 36114076; 36113768; 36113460; 36113148; 36112840; 36112532; 36112224; 36111912; 36111604; 36111296; 36110984; 36110676; 36110364; 36110056; 36109748; 36109436; 36109128;
  36108816; 36108508; 36108196; 36107888; 36107576; 36107268; 36106956; 36106644; 36106336; 36106024; 36105716; 36105404; 36105092; 36104784; 36104472; 36104160; 36103852; 36103540; 36103228; 36102920;
  36102608; 36102296; 36101984; 36101676; 36101364; 36101052; 36100740; 36100428; 36100120; 36099808; 36099496; 36099184; 36098872; 36098560; 36098248; 36097936; 36097624; 36097312; 36097000; 36096688;
  36096376; 36096064; 36095752; 36095440; 36095128; 36094816; 36094504; 36094192; 36093880; 36093568; 36093252; 36092940; 36092628; 36092316; 36092004; 36091688; 36091376; 36091064; 36090752; 36090436].
Definition values_12 : list Z := [
  36090124; 36089812; 36089500; 36089184; 36088872; 36088560; 36088244; 36087932; 36087616; 36087304; 36086992; 36086676; 36086364; 36086048; 36085736; 36085420; 36085108; 36084792; 36084480; 36084164;
  36083852; 36083536; 36083220; 36082908; 36082592; 36082280; 36081964; 36081648; 36081336; 36081020; 36080704; 36080388; 36080076; 36079760; 36079444; 36079128; 36078816; 36078500; 36078184; 36077868;
  36077552; 36077240; 36076924; 36076608; 36076292; 36075976; 36075660; 36075344; 36075028; 36074712; 36074396; 36074080; 36073764; 36073448; 36073132; 36072816; 36072500; 36072184; 36071868; 36071552;
  36071236; 36070916; 36070600; 36070284; 36069968; 36069652; 36069336; 36069016; 36068700; 36068384; 36068068; 36067748; 36067432; 36067116; 36066796; 36066480; 36066164; 36065844; 36065528; 36065212;
  36064892; 36064576; 36064256; 36063940; 36063620; 36063304; 36062984; 36062668; 36062348; 36062032; 36061712; 36061396; 36061076; 36060760; 36060440; 36060120; 36059804; 36059484; 36059164; 36058848;
  36058528; 36058208; 36057892; 36057572; 36057252; 36056932; 36056616; 36056296; 36055976; 36055656; 36055336; 36055020; 36054700; 36054380; 36054060; 36053740; 36053420; 36053100; 36052780; 36052460;
  36052140; 36051820; 36051500; 36051180; 36050860; 36050540; 36050220; 36049900; 36049580; 36049260; 36048940; 36048620; 36048300; 36047976; 36047656; 36047336; 36047016; 36046696; 36046372; 36046052;
  36045732; 36045412; 36045088; 36044768; 36044448; 36044124; 36043804; 36043484; 36043160; 36042840; 36042516; 36042196; 36041876; 36041552; 36041232; 36040908; 36040588; 36040264; 36039944; 36039620;
  36039300; 36038976; 36038652; 36038332; 36038008; 36037688; 36037364; 36037040; 36036720; 36036396; 36036072; 36035748; 36035428; 36035104; 36034780; 36034456; 36034136; 36033812; 36033488; 36033164;
  36032840; 36032520; 36032196; 36031872; 36031548; 36031224; 36030900; 36030576; 36030252; 36029928; 36029604; 36029280; 36028956; 36028632; 36028308; 36027984; 36027660; 36027336; 36027012; 36026688;
  36026360; 36026036; 36025712; 36025388; 36025064; 36024736; 36024412; 36024088; 36023764; 36023436; 36023112; 36022788; 36022464; 36022136; 36021812; 36021484; 36021160; 36020836; 36020508; 36020184;
  36019856; 36019532; 36019208; 36018880; 36018556; 36018228; 36017904; 36017576; 36017248; 36016924; 36016596; 36016272; 36015944; 36015616; 36015292; 36014964; 36014636; 36014312; 36013984; 36013656;
  36013332; 36013004; 36012676; 36012348; 36012020; 36011696; 36011368; 36011040; 36010712; 36010384; 36010056; 36009728; 36009404; 36009076; 36008748; 36008420; 36008092; 36007764; 36007436; 36007108;
  36006780; 36006452; 36006124; 36005796; 36005464; 36005136; 36004808; 36004480; 36004152; 36003824; 36003496; 36003164; 36002836; 36002508; 36002180; 36001848; 36001520; 36001192; 36000860; 36000532;
  36000204; 35999872; 35999544; 35999216; 35998884; 35998556; 35998224; 35997896; 35997568; 35997236; 35996908; 35996576; 35996248; 35995916; 35995584; 35995256; 35994924; 35994596; 35994264; 35993932;
  35993604; 35993272; 35992940; 35992612; 35992280; 35991948; 35991620; 35991288; 35990956; 35990624; 35990296; 35989964; 35989632; 35989300; 35988968; 35988636; 35988304; 35987972; 35987644; 35987312;
  35986980; 35986648; 35986316; 35985984; 35985652; 35985320; 35984988; 35984656; 35984320; 35983988; 35983656; 35983324; 35982992; 35982660; 35982328; 35981996; 35981660; 35981328; 35980996; 35980664;
  35980328; 35979996; 35979664; 35979328; 35978996; 35978664; 35978328; 35977996; 35977664; 35977328; 35976996; 35976660; 35976328; 35975996; 35975660; 35975328; 35974992; 35974660; 35974324; 35973988;
  35973656; 35973320; 35972988; 35972652; 35972316; 35971984; 35971648; 35971312; 35970980; 35970644; 35970308; 35969976; 35969640; 35969304; 35968968; 35968632; 35968300; 35967964; 35967628; 35967292;
  35966956; 35966620; 35966284; 35965948; 35965612; 35965276; 35964940; 35964604; 35964268; 35963932; 35963596; 35963260; 35962924; 35962588; 35962252; 35961916; 35961580; 35961244; 35960904; 35960568;
  35960232; 35959896; 35959560; 35959220; 35958884; 35958548; 35958208; 35957872; 35957536; 35957196; 35956860; 35956524; 35956184; 35955848; 35955508; 35955172; 35954836; 35954496; 35954160; 35953820;
  35953484; 35953144; 35952804; 35952468; 35952128; 35951792; 35951452; 35951112; 35950776; 35950436; 35950096; 35949760; 35949420; 35949080; 35948744; 35948404; 35948064; 35947724; 35947384; 35947048;
  35946708; 35946368; 35946028; 35945688; 35945348; 35945008; 35944668; 35944328; 35943988; 35943648; 35943308; 35942968; 35942628; 35942288; 35941948; 35941608; 35941268; 35940928; 35940588; 35940248;
  35939904; 35939564; 35939224; 35938884; 35938544; 35938200; 35937860; 35937520; 35937176; 35936836; 35936496; 35936152; 35935812; 35935472; 35935128; 35934788; 35934444; 35934104; 35933764; 35933420;
  35933080; 35932736; 35932396; 35932052; 35931708; 35931368; 35931024; 35930684; 35930340; 35929996; 35929656; 35929312; 35928968; 35928628; 35928284; 35927940; 35927596; 35927256; 35926912; 35926568;
  35926224; 35925880; 35925540; 35925196; 35924852; 35924508; 35924164; 35923820; 35923476; 35923132; 35922788; 35922444; 35922100; 35921756; 35921412; 35921068; 35920724; 35920380; 35920036; 35919688;
  35919344; 35919000; 35918656; 35918312; 35917964; 35917620; 35917276; 35916932; 35916584; 35916240; 35915896; 35915548; 35915204; 35914860; 35914512; 35914168; 35913820; 35913476; 35913132; 35912784;
  35912440; 35912092; 35911748; 35911400; 35911056; 35910708; 35910360; 35910016; 35909668; 35909320; 35908976; 35908628; 35908280; 35907936; 35907588; 35907240; 35906896; 35906548; 35906200; 35905852;
  35905504; 35905156; 35904812; 35904464; 35904116; 35903768; 35903420; 35903072; 35902724; 35902376; 35902028; 35901680; 35901332; 35900984; 35900636; 35900288; 35899940; 35899592; 35899244; 35898892;
  35898544; 35898196; 35897848; 35897500; 35897148; 35896800; 35896452; 35896104; 35895752; 35895404; 35895056; 35894704; 35894356; 35894008; 35893656; 35893308; 35892956; 35892608; 35892256; 35891908;
  35891556; 35891208; 35890856; 35890508; 35890156; 35889808; 35889456; 35889104; 35888756; 35888404; 35888052; 35887704; 35887352; 35887000; 35886652; 35886300; 35885948; 35885596; 35885244; 35884896;
  35884544; 35884192; 35883840; 35883488; 35883136; 35882784; 35882432; 35882080; 35881728; 35881376; 35881024; 35880672; 35880320; 35879968; 35879616; 35879264; 35878912; 35878560; 35878204; 35877852;
  35877500; 35877148; 35876796; 35876440; 35876088; 35875736; 35875384; 35875028; 35874676; 35874324; 35873968; 35873616; 35873260; 35872908; 35872556; 35872200; 35871848; 35871492; 35871140; 35870784;
  35870432; 35870076; 35869720; 35869368; 35869012; 35868660; 35868304; 35867948; 35867596; 35867240; 35866884; 35866528; 35866176; 35865820; 35865464; 35865108; 35864752; 35864400; 35864044; 35863688;
  35863332; 35862976; 35862620; 35862264; 35861908; 35861552; 35861196; 35860840; 35860484; 35860128; 35859772; 35859416; 35859060; 35858704; 35858348; 35857988; 35857632; 35857276; 35856920; 35856564;
  35856204; 35855848; 35855492; 35855132; 35854776; 35854420; 35854060; 35853704; 35853348; 35852988; 35852632; 35852272; 35851916; 35851556; 35851200; 35850840; 35850484; 35850124; 35849768; 35849408;
  35849052; 35848692; 35848332; 35847976; 35847616; 35847256; 35846896; 35846540; 35846180; 35845820; 35845460; 35845104; 35844744; 35844384; 35844024; 35843664; 35843304; 35842944; 35842584; 35842228;
  35841868; 35841508; 35841148; 35840788; 35840424; 35840064; 35839704; 35839344; 35838984; 35838624; 35838264; 35837904; 35837544; 35837180; 35836820; 35836460; 35836100; 35835736; 35835376; 35835016;
  35834652; 35834292; 35833932; 35833568; 35833208; 35832844; 35832484; 35832124; 35831760; 35831400; 35831036; 35830672; 35830312; 35829948; 35829588; 35829224; 35828864; 35828500; 35828136; 35827776;
  35827412; 35827048; 35826684; 35826324; 35825960; 35825596; 35825232; 35824868; 35824508; 35824144; 35823780; 35823416; 35823052; 35822688; 35822324; 35821960; 35821596; 35821232; 35820868; 35820504;
  35820140; 35819776; 35819412; 35819048; 35818684; 35818316; 35817952; 35817588; 35817224; 35816860; 35816492; 35816128; 35815764; 35815396; 35815032; 35814668; 35814300; 35813936; 35813572; 35813204;
  35812840; 35812472; 35812108; 35811740; 35811376; 35811008; 35810644; 35810276; 35809912; 35809544; 35809176; 35808812; 35808444; 35808076; 35807712; 35807344; 35806976; 35806608; 35806244; 35805876;
  35805508; 35805140; 35804772; 35804404; 35804040; 35803672; 35803304; 35802936; 35802568; 35802200; 35801832; 35801464; 35801096; 35800728; 35800360; 35799992; 35799620; 35799252; 35798884; 35798516;
  35798148; 35797780; 35797408; 35797040; 35796672; 35796304; 35795932; 35795564; 35795196; 35794824; 35794456; 35794084; 35793716; 35793348; 35792976; 35792608; 35792236; 35791868; 35791496; 35791128;
  35790756; 35790384; 35790016; 35789644; 35789272; 35788904; 35788532; 35788160; 35787792; 35787420; 35787048; 35786676; 35786308; 35785936; 35785564; 35785192; 35784820; 35784448; 35784076; 35783704;
  35783332; 35782960; 35782588; 35782216; 35781844; 35781472; 35781100; 35780728; 35780356; 35779984; 35779612; 35779240; 35778864; 35778492; 35778120; 35777748; 35777376; 35777000; 35776628; 35776256;
  35775880; 35775508; 35775136; 35774760; 35774388; 35774012; 35773640; 35773264; 35772892; 35772516; 35772144; 35771768; 35771396; 35771020; 35770644; 35770272; 35769896; 35769520; 35769148; 35768772;
  35768396; 35768024; 35767648; 35767272; 35766896; 35766520; 35766144; 35765772; 35765396; 35765020; 35764644; 35764268; 35763892; 35763516; 35763140; 35762764; 35762388; 35762012; 35761636; 35761260;
  35760880; 35760504; 35760128; 35759752; 35759376; 35759000; 35758620; 35758244; 35757868; 35757488; 35757112; 35756736; 35756356; 35755980; 35755604; 35755224; 35754848; 35754468; 35754092; 35753712;
  35753336; 35752956; 35752580; 35752200; 35751820; 35751444; 35751064; 35750684; 35750308; 35749928; 35749548; 35749172; 35748792; 35748412; 35748032; 35747652; 35747276; 35746896; 35746516; 35746136].
Definition values_13 : list Z := [
  35745756; 35745376; 35744996; 35744616; 35744236; 35743856; 35743476; 35743096; 35742716; 35742336; 35741956; 35741576; 35741192; 35740812; 35740432; 35740052; 35739668; 35739288; 35738908; 35738528;
  35738144; 35737764; 35737384; 35737000; 35736620; 35736236; 35735856; 35735472; 35735092; 35734708; 35734328; 35733944; 35733564; 35733180; 35732800; 35732416; 35732032; 35731652; 35731268; 35730884;
  35730500; 35730120; 35729736; 35729352; 35728968; 35728584; 35728204; 35727820; 35727436; 35727052; 35726668; 35726284; 35725900; 35725516; 35725132; 35724748; 35724364; 35723980; 35723596; 35723212;
  35722824; 35722440; 35722056; 35721672; 35721288; 35720900; 35720516; 35720132; 35719748; 35719360; 35718976; 35718588; 35718204; 35717820; 35717432; 35717048; 35716660; 35716276; 35715888; 35715504;
  35715116; 35714732; 35714344; 35713956; 35713572; 35713184; 35712796; 35712412; 35712024; 35711636; 35711248; 35710864; 35710476; 35710088; 35709700; 35709312; 35708924; 35708536; 35708152; 35707764;
  35707376; 35706988; 35706600; 35706212; 35705824; 35705432; 35705044; 35704656; 35704268; 35703880; 35703492; 35703100; 35702712; 35702324; 35701936; 35701544; 35701156; 35700768; 35700376; 35699988;
  35699600; 35699208; 35698820; 35698428; 35698040; 35697648; 35697260; 35696868; 35696480; 35696088; 35695700; 35695308; 35694916; 35694528; 35694136; 35693744; 35693352; 35692964; 35692572; 35692180;
  35691788; 35691396; 35691008; 35690616; 35690224; 35689832; 35689440; 35689048; 35688656; 35688264; 35687872; 35687480; 35687088; 35686696; 35686304; 35685908; 35685516; 35685124; 35684732; 35684340;
  35683944; 35683552; 35683160; 35682764; 35682372; 35681980; 35681584; 35681192; 35680800; 35680404; 35680012; 35679616; 35679224; 35678828; 35678436; 35678040; 35677644; 35677252; 35676856; 35676464;
  35676068; 35675672; 35675276; 35674884; 35674488; 35674092; 35673696; 35673300; 35672908; 35672512; 35672116; 35671720; 35671324; 35670928; 35670532; 35670136; 35669740; 35669344; 35668948; 35668552;
  35668156; 35667760; 35667360; 35666964; 35666568; 35666172; 35665776; 35665376; 35664980; 35664584; 35664184; 35663788; 35663392; 35662992; 35662596; 35662196; 35661800; 35661400; 35661004; 35660604;
  35660208; 35659808; 35659412; 35659012; 35658612; 35658216; 35657816; 35657416; 35657020; 35656620; 35656220; 35655820; 35655420; 35655024; 35654624; 35654224; 35653824; 35653424; 35653024; 35652624;
  35652224; 35651824; 35651424; 35651024; 35650624; 35650224; 35649824; 35649420; 35649020; 35648620; 35648220; 35647820; 35647416; 35647016; 35646616; 35646212; 35645812; 35645412; 35645008; 35644608;
  35644204; 35643804; 35643400; 35643000; 35642596; 35642196; 35641792; 35641392; 35640988; 35640584; 35640184; 35639780; 35639376; 35638976; 35638572; 35638168; 35637764; 35637360; 35636960; 35636556;
  35636152; 35635748; 35635344; 35634940; 35634536; 35634132; 35633728; 35633324; 35632920; 35632516; 35632112; 35631704; 35631300; 35630896; 35630492; 35630088; 35629680; 35629276; 35628872; 35628464;
  35628060; 35627656; 35627248; 35626844; 35626436; 35626032; 35625624; 35625220; 35624812; 35624408; 35624000; 35623596; 35623188; 35622780; 35622376; 35621968; 35621560; 35621156; 35620748; 35620340;
  35619932; 35619524; 35619120; 35618712; 35618304; 35617896; 35617488; 35617080; 35616672; 35616264; 35615856; 35615448; 35615040; 35614632; 35614224; 35613812; 35613404; 35612996; 35612588; 35612180;
  35611768; 35611360; 35610952; 35610540; 35610132; 35609724; 35609312; 35608904; 35608492; 35608084; 35607672; 35607264; 35606852; 35606444; 35606032; 35605620; 35605212; 35604800; 35604388; 35603980;
  35603568; 35603156; 35602744; 35602336; 35601924; 35601512; 35601100; 35600688; 35600276; 35599864; 35599452; 35599040; 35598628; 35598216; 35597804; 35597392; 35596980; 35596568; 35596156; 35595740;
  35595328; 35594916; 35594504; 35594088; 35593676; 35593264; 35592848; 35592436; 35592024; 35591608; 35591196; 35590780; 35590368; 35589952; 35589540; 35589124; 35588712; 35588296; 35587880; 35587468;
  35587052; 35586636; 35586224; 35585808; 35585392; 35584976; 35584560; 35584148; 35583732; 35583316; 35582900; 35582484; 35582068; 35581652; 35581236; 35580820; 35580404; 35579988; 35579572; 35579152;
  35578736; 35578320; 35577904; 35577488; 35577068; 35576652; 35576236; 35575816; 35575400; 35574984; 35574564; 35574148; 35573728; 35573312; 35572892; 35572476; 35572056; 35571640; 35571220; 35570804;
  35570384; 35569964; 35569548; 35569128; 35568708; 35568288; 35567872; 35567452; 35567032; 35566612; 35566192; 35565772; 35565352; 35564932; 35564512; 35564092; 35563672; 35563252; 35562832; 35562412;
  35561992; 35561572; 35561152; 35560728; 35560308; 35559888; 35559468; 35559044; 35558624; 35558204; 35557780; 35557360; 35556936; 35556516; 35556092; 35555672; 35555248; 35554828; 35554404; 35553984;
  35553560; 35553136; 35552716; 35552292; 35551868; 35551444; 35551024; 35550600; 35550176; 35549752; 35549328; 35548904; 35548480; 35548060; 35547636; 35547212; 35546788; 35546360; 35545936; 35545512;
  35545088; 35544664; 35544240; 35543816; 35543388; 35542964; 35542540; 35542116; 35541688; 35541264; 35540840; 35540412; 35539988; 35539560; 35539136; 35538708; 35538284; 35537856; 35537432; 35537004;
  35536576; 35536152; 35535724; 35535296; 35534872; 35534444; 35534016; 35533588; 35533160; 35532736; 35532308; 35531880; 35531452; 35531024; 35530596; 35530168; 35529740; 35529312; 35528884; 35528456;
  35528024; 35527596; 35527168; 35526740; 35526312; 35525880; 35525452; 35525024; 35524592; 35524164; 35523736; 35523304; 35522876; 35522444; 35522016; 35521584; 35521156; 35520724; 35520296; 35519864;
  35519432; 35519004; 35518572; 35518140; 35517712; 35517280; 35516848; 35516416; 35515984; 35515552; 35515124; 35514692; 35514260; 35513828; 35513396; 35512964; 35512532; 35512096; 35511664; 35511232;
  35510800; 35510368; 35509936; 35509500; 35509068; 35508636; 35508204; 35507768; 35507336; 35506900; 35506468; 35506036; 35505600; 35505168; 35504732; 35504300; 35503864; 35503428; 35502996; 35502560;
  35502124; 35501692; 35501256; 35500820; 35500384; 35499952; 35499516; 35499080; 35498644; 35498208; 35497772; 35497336; 35496900; 35496464; 35496028; 35495592; 35495156; 35494720; 35494284; 35493844;
  35493408; 35492972; 35492536; 35492096; 35491660; 35491224; 35490784; 35490348; 35489912; 35489472; 35489036; 35488596; 35488160; 35487720; 35487280; 35486844; 35486404; 35485968; 35485528; 35485088;
  35484648; 35484212; 35483772; 35483332; 35482892; 35482452; 35482012; 35481572; 35481136; 35480696; 35480256; 35479812; 35479372; 35478932; 35478492; 35478052; 35477612; 35477172; 35476728; 35476288;
  35475848; 35475408; 35474964; 35474524; 35474084; 35473640; 35473200; 35472756; 35472316; 35471872; 35471432; 35470988; 35470548; 35470104; 35469660; 35469220; 35468776; 35468332; 35467888; 35467448;
  35467004; 35466560; 35466116; 35465672; 35465228; 35464784; 35464340; 35463896; 35463452; 35463008; 35462564; 35462120; 35461676; 35461232; 35460784; 35460340; 35459896; 35459452; 35459004; 35458560;
  35458116; 35457668; 35457224; 35456776; 35456332; 35455884; 35455440; 35454992; 35454548; 35454100; 35453656; 35453208; 35452760; 35452312; 35451868; 35451420; 35450972; 35450524; 35450076; 35449632;
  35449184; 35448736; 35448288; 35447840; 35447392; 35446944; 35446496; 35446044; 35445596; 35445148; 35444700; 35444252; 35443800; 35443352; 35442904; 35442456; 35442004; 35441556; 35441104; 35440656;
  35440204; 35439756; 35439304; 35438856; 35438404; 35437956; 35437504; 35437052; 35436604; 35436152; 35435700; 35435248; 35434800; 35434348; 35433896; 35433444; 35432992; 35432540; 35432088; 35431636;
  35431184; 35430732; 35430280; 35429828; 35429376; 35428920; 35428468; 35428016; 35427564; 35427112; 35426656; 35426204; 35425748; 35425296; 35424844; 35424388; 35423936; 35423480; 35423028; 35422572;
  35422116; 35421664; 35421208; 35420752; 35420300; 35419844; 35419388; 35418932; 35418480; 35418024; 35417568; 35417112; 35416656; 35416200; 35415744; 35415288; 35414832; 35414376; 35413920; 35413464;
  35413004; 35412548; 35412092; 35411636; 35411176; 35410720; 35410264; 35409804; 35409348; 35408888; 35408432; 35407976; 35407516; 35407056; 35406600; 35406140; 35405684; 35405224; 35404764; 35404304;
  35403848; 35403388; 35402928; 35402468; 35402008; 35401552; 35401092; 35400632; 35400172; 35399712; 35399252; 35398788; 35398328; 35397868; 35397408; 35396948; 35396488; 35396024; 35395564; 35395104;
  35394640; 35394180; 35393720; 35393256; 35392796; 35392332; 35391872; 35391408; 35390948; 35390484; 35390020; 35389560; 35389096; 35388632; 35388172; 35387708; 35387244; 35386780; 35386316; 35385852;
  35385388; 35384924; 35384464; 35383996; 35383532; 35383068; 35382604; 35382140; 35381676; 35381212; 35380748; 35380280; 35379816; 35379352; 35378884; 35378420; 35377952; 35377488; 35377024; 35376556;
  35376092; 35375624; 35375156; 35374692; 35374224; 35373756; 35373292; 35372824; 35372356; 35371888; 35371424; 35370956; 35370488; 35370020; 35369552; 35369084; 35368616; 35368148; 35367680; 35367212;
  35366744; 35366272; 35365804; 35365336; 35364868; 35364400; 35363928; 35363460; 35362992; 35362520; 35362052; 35361580; 35361112; 35360640; 35360172; 35359700; 35359228; 35358760; 35358288; 35357816;
  35357348; 35356876; 35356404; 35355932; 35355460; 35354988; 35354520; 35354048; 35353576; 35353104; 35352632; 35352156; 35351684; 35351212; 35350740; 35350268; 35349796; 35349320; 35348848; 35348376;
  35347900; 35347428; 35346956; 35346480; 35346008; 35345532; 35345060; 35344584; 35344108; 35343636; 35343160; 35342684; 35342212; 35341736; 35341260; 35340784; 35340308; 35339836; 35339360; 35338884;
  35338408; 35337932; 35337456; 35336980; 35336500; 35336024; 35335548; 35335072; 35334596; 35334120; 35333640; 35333164; 35332688; 35332208; 35331732; 35331252; 35330776; 35330296; 35329820; 35329340;
  35328864; 35328384; 35327904; 35327428; 35326948; 35326468; 35325988; 35325508; 35325032; 35324552; 35324072; 35323592; 35323112; 35322632; 35322152; 35321672; 35321192; 35320708; 35320228; 35319748].
Definition values_14 : list Z := [
  35319268; 35318788; 35318304; 35317824; 35317344; 35316860; 35316380; 35315896; 35315416; 35314932; 35314452; 35313968; 35313484; 35313004; 35312520; 35312036; 35311556; 35311072; 35310588; 35310104;
  35309620; 35309136; 35308652; 35308168; 35307684; 35307200; 35306716; 35306232; 35305748; 35305264; 35304780; 35304292; 35303808; 35303324; 35302840; 35302352; 35301868; 35301380; 35300896; 35300408;
  35299924; 35299436; 35298952; 35298464; 35297976; 35297492; 35297004; 35296516; 35296028; 35295544; 35295056; 35294568; 35294080; 35293592; 35293104; 35292616; 35292128; 35291640; 35291152; 35290664;
  35290172; 35289684; 35289196; 35288708; 35288216; 35287728; 35287240; 35286748; 35286260; 35285768; 35285280; 35284788; 35284300; 35283808; 35283316; 35282828; 35282336; 35281844; 35281352; 35280864;
  35280372; 35279880; 35279388; 35278896; 35278404; 35277912; 35277420; 35276928; 35276436; 35275944; 35275452; 35274956; 35274464; 35273972; 35273476; 35272984; 35272492; 35271996; 35271504; 35271008;
  35270516; 35270020; 35269528; 35269032; 35268540; 35268044; 35267548; 35267052; 35266560; 35266064; 35265568; 35265072; 35264576; 35264080; 35263584; 35263088; 35262592; 35262096; 35261600; 35261104;
  35260608; 35260108; 35259612; 35259116; 35258616; 35258120; 35257624; 35257124; 35256628; 35256128; 35255632; 35255132; 35254636; 35254136; 35253636; 35253140; 35252640; 35252140; 35251640; 35251140;
  35250644; 35250144; 35249644; 35249144; 35248644; 35248144; 35247644; 35247144; 35246640; 35246140; 35245640; 35245140; 35244636; 35244136; 35243636; 35243132; 35242632; 35242128; 35241628; 35241124;
  35240624; 35240120; 35239620; 35239116; 35238612; 35238112; 35237608; 35237104; 35236600; 35236096; 35235592; 35235088; 35234584; 35234080; 35233576; 35233072; 35232568; 35232064; 35231560; 35231056;
  35230548; 35230044; 35229540; 35229032; 35228528; 35228020; 35227516; 35227008; 35226504; 35225996; 35225492; 35224984; 35224476; 35223972; 35223464; 35222956; 35222448; 35221940; 35221436; 35220928;
  35220420; 35219912; 35219404; 35218896; 35218384; 35217876; 35217368; 35216860; 35216352; 35215840; 35215332; 35214824; 35214312; 35213804; 35213292; 35212784; 35212272; 35211764; 35211252; 35210744;
  35210232; 35209720; 35209208; 35208700; 35208188; 35207676; 35207164; 35206652; 35206140; 35205628; 35205116; 35204604; 35204092; 35203580; 35203068; 35202552; 35202040; 35201528; 35201012; 35200500;
  35199988; 35199472; 35198960; 35198444; 35197932; 35197416; 35196904; 35196388; 35195872; 35195356; 35194844; 35194328; 35193812; 35193296; 35192780; 35192264; 35191748; 35191232; 35190716; 35190200;
  35189684; 35189168; 35188652; 35188132; 35187616; 35187100; 35186584; 35186064; 35185548; 35185028; 35184512; 35183992; 35183476; 35182956; 35182436; 35181920; 35181400; 35180880; 35180360; 35179844;
  35179324; 35178804; 35178284; 35177764; 35177244; 35176724; 35176204; 35175684; 35175160; 35174640; 35174120; 35173600; 35173076; 35172556; 35172036; 35171512; 35170992; 35170468; 35169948; 35169424;
  35168904; 35168380; 35167856; 35167336; 35166812; 35166288; 35165764; 35165240; 35164716; 35164192; 35163668; 35163144; 35162620; 35162096; 35161572; 35161048; 35160524; 35159996; 35159472; 35158948;
  35158420; 35157896; 35157372; 35156844; 35156320; 35155792; 35155264; 35154740; 35154212; 35153684; 35153160; 35152632; 35152104; 35151576; 35151048; 35150520; 35149992; 35149464; 35148936; 35148408;
  35147880; 35147352; 35146824; 35146292; 35145764; 35145236; 35144708; 35144176; 35143648; 35143116; 35142588; 35142056; 35141528; 35140996; 35140464; 35139936; 35139404; 35138872; 35138340; 35137808;
  35137276; 35136744; 35136216; 35135680; 35135148; 35134616; 35134084; 35133552; 35133020; 35132488; 35131952; 35131420; 35130888; 35130352; 35129820; 35129284; 35128752; 35128216; 35127684; 35127148;
  35126612; 35126080; 35125544; 35125008; 35124472; 35123936; 35123400; 35122864; 35122328; 35121792; 35121256; 35120720; 35120184; 35119648; 35119112; 35118572; 35118036; 35117500; 35116960; 35116424;
  35115884; 35115348; 35114808; 35114272; 35113732; 35113192; 35112656; 35112116; 35111576; 35111036; 35110496; 35109960; 35109420; 35108880; 35108340; 35107800; 35107256; 35106716; 35106176; 35105636;
  35105096; 35104552; 35104012; 35103472; 35102928; 35102388; 35101844; 35101304; 35100760; 35100216; 35099676; 35099132; 35098588; 35098044; 35097504; 35096960; 35096416; 35095872; 35095328; 35094784;
  35094240; 35093696; 35093152; 35092604; 35092060; 35091516; 35090972; 35090424; 35089880; 35089332; 35088788; 35088240; 35087696; 35087148; 35086600; 35086056; 35085508; 35084960; 35084412; 35083868;
  35083320; 35082772; 35082224; 35081676; 35081128; 35080580; 35080032; 35079480; 35078932; 35078384; 35077836; 35077284; 35076736; 35076184; 35075636; 35075084; 35074536; 35073984; 35073436; 35072884;
  35072332; 35071780; 35071232; 35070680; 35070128; 35069576; 35069024; 35068472; 35067920; 35067368; 35066816; 35066264; 35065708; 35065156; 35064604; 35064048; 35063496; 35062944; 35062388; 35061836;
  35061280; 35060728; 35060172; 35059616; 35059060; 35058508; 35057952; 35057396; 35056840; 35056284; 35055728; 35055172; 35054616; 35054060; 35053504; 35052948; 35052388; 35051832; 35051276; 35050720;
  35050160; 35049604; 35049044; 35048488; 35047928; 35047368; 35046812; 35046252; 35045692; 35045136; 35044576; 35044016; 35043456; 35042896; 35042336; 35041776; 35041216; 35040656; 35040096; 35039532;
  35038972; 35038412; 35037848; 35037288; 35036728; 35036164; 35035604; 35035040; 35034480; 35033916; 35033352; 35032788; 35032228; 35031664; 35031100; 35030536; 35029972; 35029408; 35028844; 35028280;
  35027716; 35027152; 35026588; 35026020; 35025456; 35024892; 35024324; 35023760; 35023192; 35022628; 35022060; 35021496; 35020928; 35020360; 35019796; 35019228; 35018660; 35018092; 35017524; 35016956;
  35016388; 35015820; 35015252; 35014684; 35014116; 35013548; 35012976; 35012408; 35011840; 35011268; 35010700; 35010128; 35009560; 35008988; 35008420; 35007848; 35007276; 35006704; 35006136; 35005564;
  35004992; 35004420; 35003848; 35003276; 35002704; 35002132; 35001560; 35000984; 35000412; 34999840; 34999264; 34998692; 34998120; 34997544; 34996972; 34996396; 34995824; 34995248; 34994672; 34994096;
  34993524; 34992948; 34992372; 34991796; 34991220; 34990644; 34990068; 34989492; 34988916; 34988336; 34987760; 34987184; 34986608; 34986028; 34985452; 34984872; 34984296; 34983716; 34983140; 34982560;
  34981980; 34981404; 34980824; 34980244; 34979664; 34979084; 34978504; 34977924; 34977344; 34976764; 34976184; 34975604; 34975020; 34974440; 34973860; 34973276; 34972696; 34972112; 34971532; 34970948;
  34970368; 34969784; 34969200; 34968620; 34968036; 34967452; 34966868; 34966284; 34965700; 34965116; 34964532; 34963948; 34963364; 34962776; 34962192; 34961608; 34961020; 34960436; 34959852; 34959264;
  34958676; 34958092; 34957504; 34956920; 34956332; 34955744; 34955156; 34954568; 34953980; 34953392; 34952804; 34952216; 34951628; 34951040; 34950452; 34949864; 34949272; 34948684; 34948092; 34947504;
  34946916; 34946324; 34945732; 34945144; 34944552; 34943960; 34943372; 34942780; 34942188; 34941596; 34941004; 34940412; 34939820; 34939228; 34938636; 34938040; 34937448; 34936856; 34936260; 34935668;
  34935076; 34934480; 34933884; 34933292; 34932696; 34932104; 34931508; 34930912; 34930316; 34929720; 34929124; 34928528; 34927932; 34927336; 34926740; 34926144; 34925548; 34924948; 34924352; 34923756;
  34923156; 34922560; 34921960; 34921364; 34920764; 34920164; 34919568; 34918968; 34918368; 34917768; 34917168; 34916568; 34915968; 34915368; 34914768; 34914168; 34913568; 34912968; 34912364; 34911764;
  34911160; 34910560; 34909960; 34909356; 34908752; 34908152; 34907548; 34906944; 34906340; 34905740; 34905136; 34904532; 34903928; 34903324; 34902720; 34902112; 34901508; 34900904; 34900300; 34899692;
  34899088; 34898484; 34897876; 34897268; 34896664; 34896056; 34895452; 34894844; 34894236; 34893628; 34893020; 34892412; 34891804; 34891196; 34890588; 34889980; 34889372; 34888760; 34888152; 34887544;
  34886932; 34886324; 34885712; 34885104; 34884492; 34883884; 34883272; 34882660; 34882048; 34881436; 34880828; 34880216; 34879604; 34878992; 34878376; 34877764; 34877152; 34876540; 34875924; 34875312;
  34874700; 34874084; 34873472; 34872856; 34872240; 34871628; 34871012; 34870396; 34869780; 34869164; 34868552; 34867936; 34867316; 34866700; 34866084; 34865468; 34864852; 34864232; 34863616; 34863000;
  34862380; 34861764; 34861144; 34860528; 34859908; 34859288; 34858668; 34858052; 34857432; 34856812; 34856192; 34855572; 34854952; 34854332; 34853708; 34853088; 34852468; 34851844; 34851224; 34850604;
  34849980; 34849360; 34848736; 34848112; 34847492; 34846868; 34846244; 34845620; 34844996; 34844372; 34843748; 34843124; 34842500; 34841876; 34841248; 34840624; 34840000; 34839372; 34838748; 34838120;
  34837496; 34836868; 34836244; 34835616; 34834988; 34834360; 34833732; 34833104; 34832476; 34831848; 34831220; 34830592; 34829964; 34829336; 34828704; 34828076; 34827444; 34826816; 34826184; 34825556;
  34824924; 34824292; 34823664; 34823032; 34822400; 34821768; 34821136; 34820504; 34819872; 34819240; 34818608; 34817976; 34817340; 34816708; 34816072; 34815440; 34814804; 34814172; 34813536; 34812904;
  34812268; 34811632; 34810996; 34810360; 34809724; 34809088; 34808452; 34807816; 34807180; 34806544; 34805908; 34805268; 34804632; 34803992; 34803356; 34802716; 34802080; 34801440; 34800800; 34800160;
  34799524; 34798884; 34798244; 34797604; 34796964; 34796324; 34795680; 34795040; 34794400; 34793760; 34793116; 34792476; 34791832; 34791192; 34790548; 34789904; 34789264; 34788620; 34787976; 34787332;
  34786688; 34786044; 34785400; 34784756; 34784112; 34783468; 34782820; 34782176; 34781528; 34780884; 34780236; 34779592; 34778944; 34778300; 34777652; 34777004; 34776356; 34775708; 34775060; 34774412;
  34773764; 34773116; 34772468; 34771816; 34771168; 34770520; 34769868; 34769220; 34768568; 34767920; 34767268; 34766616; 34765968; 34765316; 34764664; 34764012; 34763360; 34762708; 34762056; 34761400].
Definition values_15 : list Z := [
  34760748; 34760096; 34759444; 34758788; 34758136; 34757480; 34756828; 34756172; 34755516; 34754860; 34754208; 34753552; 34752896; 34752240; 34751584; 34750928; 34750268; 34749612; 34748956; 34748296;
  34747640; 34746984; 34746324; 34745664; 34745008; 34744348; 34743688; 34743032; 34742372; 34741712; 34741052; 34740392; 34739732; 34739068; 34738408; 34737748; 34737084; 34736424; 34735764; 34735100;
  34734436; 34733776; 34733112; 34732448; 34731784; 34731124; 34730460; 34729796; 34729132; 34728464; 34727800; 34727136; 34726472; 34725804; 34725140; 34724472; 34723808; 34723140; 34722476; 34721808;
  34721140; 34720472; 34719804; 34719136; 34718468; 34717800; 34717132; 34716464; 34715792; 34715124; 34714456; 34713784; 34713116; 34712444; 34711776; 34711104; 34710432; 34709760; 34709088; 34708416;
  34707744; 34707072; 34706400; 34705728; 34705056; 34704380; 34703708; 34703036; 34702360; 34701684; 34701012; 34700336; 34699660; 34698988; 34698312; 34697636; 34696960; 34696284; 34695608; 34694928;
  34694252; 34693576; 34692900; 34692220; 34691544; 34690864; 34690184; 34689508; 34688828; 34688148; 34687468; 34686788; 34686108; 34685428; 34684748; 34684068; 34683388; 34682704; 34682024; 34681344;
  34680660; 34679980; 34679296; 34678612; 34677932; 34677248; 34676564; 34675880; 34675196; 34674512; 34673828; 34673140; 34672456; 34671772; 34671088; 34670400; 34669716; 34669028; 34668340; 34667656;
  34666968; 34666280; 34665592; 34664904; 34664216; 34663528; 34662840; 34662152; 34661460; 34660772; 34660084; 34659392; 34658704; 34658012; 34657320; 34656632; 34655940; 34655248; 34654556; 34653864;
  34653172; 34652480; 34651788; 34651092; 34650400; 34649708; 34649012; 34648320; 34647624; 34646928; 34646236; 34645540; 34644844; 34644148; 34643452; 34642756; 34642060; 34641364; 34640668; 34639968;
  34639272; 34638576; 34637876; 34637180; 34636480; 34635780; 34635080; 34634384; 34633684; 34632984; 34632284; 34631584; 34630880; 34630180; 34629480; 34628780; 34628076; 34627376; 34626672; 34625968;
  34625268; 34624564; 34623860; 34623156; 34622452; 34621748; 34621044; 34620340; 34619636; 34618932; 34618224; 34617520; 34616812; 34616108; 34615400; 34614692; 34613988; 34613280; 34612572; 34611864;
  34611156; 34610448; 34609736; 34609028; 34608320; 34607612; 34606900; 34606192; 34605480; 34604768; 34604060; 34603348; 34602636; 34601924; 34601212; 34600500; 34599788; 34599076; 34598360; 34597648;
  34596936; 34596220; 34595508; 34594792; 34594076; 34593360; 34592648; 34591932; 34591216; 34590500; 34589784; 34589064; 34588348; 34587632; 34586916; 34586196; 34585480; 34584760; 34584040; 34583324;
  34582604; 34581884; 34581164; 34580444; 34579724; 34579004; 34578284; 34577560; 34576840; 34576116; 34575396; 34574672; 34573952; 34573228; 34572504; 34571780; 34571056; 34570332; 34569608; 34568884;
  34568160; 34567436; 34566708; 34565984; 34565256; 34564532; 34563804; 34563080; 34562352; 34561624; 34560896; 34560168; 34559440; 34558712; 34557984; 34557252; 34556524; 34555796; 34555064; 34554332;
  34553604; 34552872; 34552140; 34551408; 34550680; 34549948; 34549212; 34548480; 34547748; 34547016; 34546280; 34545548; 34544812; 34544080; 34543344; 34542608; 34541876; 34541140; 34540404; 34539668;
  34538932; 34538196; 34537456; 34536720; 34535984; 34535244; 34534508; 34533768; 34533028; 34532292; 34531552; 34530812; 34530072; 34529332; 34528592; 34527848; 34527108; 34526368; 34525624; 34524884;
  34524140; 34523400; 34522656; 34521912; 34521168; 34520424; 34519680; 34518936; 34518192; 34517448; 34516700; 34515956; 34515212; 34514464; 34513716; 34512972; 34512224; 34511476; 34510728; 34509980;
  34509232; 34508484; 34507736; 34506984; 34506236; 34505488; 34504736; 34503988; 34503236; 34502484; 34501732; 34500980; 34500228; 34499476; 34498724; 34497972; 34497220; 34496464; 34495712; 34494956;
  34494204; 34493448; 34492692; 34491936; 34491184; 34490428; 34489672; 34488912; 34488156; 34487400; 34486644; 34485884; 34485128; 34484368; 34483608; 34482848; 34482092; 34481332; 34480572; 34479812;
  34479052; 34478288; 34477528; 34476768; 34476004; 34475244; 34474480; 34473716; 34472956; 34472192; 34471428; 34470664; 34469900; 34469136; 34468368; 34467604; 34466840; 34466072; 34465308; 34464540;
  34463772; 34463004; 34462236; 34461472; 34460700; 34459932; 34459164; 34458396; 34457628; 34456856; 34456088; 34455316; 34454544; 34453776; 34453004; 34452232; 34451460; 34450688; 34449916; 34449140;
  34448368; 34447596; 34446820; 34446048; 34445272; 34444496; 34443720; 34442948; 34442172; 34441396; 34440616; 34439840; 34439064; 34438288; 34437508; 34436732; 34435952; 34435172; 34434392; 34433616;
  34432836; 34432056; 34431272; 34430492; 34429712; 34428932; 34428148; 34427368; 34426584; 34425800; 34425020; 34424236; 34423452; 34422668; 34421884; 34421100; 34420312; 34419528; 34418744; 34417956;
  34417168; 34416384; 34415596; 34414808; 34414020; 34413232; 34412444; 34411656; 34410868; 34410076; 34409288; 34408496; 34407708; 34406916; 34406124; 34405332; 34404544; 34403748; 34402956; 34402164;
  34401372; 34400580; 34399784; 34398992; 34398196; 34397400; 34396604; 34395812; 34395016; 34394220; 34393420; 34392624; 34391828; 34391032; 34390232; 34389436; 34388636; 34387836; 34387036; 34386240;
  34385440; 34384636; 34383836; 34383036; 34382236; 34381432; 34380632; 34379828; 34379028; 34378224; 34377420; 34376616; 34375812; 34375008; 34374204; 34373396; 34372592; 34371788; 34370980; 34370172;
  34369368; 34368560; 34367752; 34366944; 34366136; 34365328; 34364516; 34363708; 34362900; 34362088; 34361280; 34360468; 34359656; 34358844; 34358032; 34357220; 34356408; 34355596; 34354784; 34353968;
  34353156; 34352340; 34351528; 34350712; 34349896; 34349080; 34348264; 34347448; 34346632; 34345812; 34344996; 34344176; 34343360; 34342540; 34341724; 34340904; 34340084; 34339264; 34338444; 34337620;
  34336800; 34335980; 34335156; 34334336; 34333512; 34332688; 34331868; 34331044; 34330220; 34329396; 34328568; 34327744; 34326920; 34326092; 34325268; 34324440; 34323612; 34322784; 34321956; 34321128;
  34320300; 34319472; 34318644; 34317812; 34316984; 34316152; 34315324; 34314492; 34313660; 34312828; 34311996; 34311164; 34310332; 34309496; 34308664; 34307832; 34306996; 34306160; 34305324; 34304492;
  34303656; 34302820; 34301980; 34301144; 34300308; 34299468; 34298632; 34297792; 34296952; 34296116; 34295276; 34294436; 34293596; 34292752; 34291912; 34291072; 34290228; 34289388; 34288544; 34287700;
  34286856; 34286012; 34285168; 34284324; 34283480; 34282636; 34281788; 34280944; 34280096; 34279248; 34278400; 34277556; 34276704; 34275856; 34275008; 34274160; 34273308; 34272460; 34271608; 34270760;
  34269908; 34269056; 34268204; 34267352; 34266500; 34265644; 34264792; 34263940; 34263084; 34262228; 34261376; 34260520; 34259664; 34258808; 34257952; 34257092; 34256236; 34255376; 34254520; 34253660;
  34252800; 34251944; 34251084; 34250224; 34249360; 34248500; 34247640; 34246776; 34245916; 34245052; 34244188; 34243328; 34242464; 34241600; 34240732; 34239868; 34239004; 34238136; 34237272; 34236404;
  34235536; 34234672; 34233804; 34232936; 34232064; 34231196; 34230328; 34229456; 34228588; 34227716; 34226844; 34225976; 34225104; 34224232; 34223356; 34222484; 34221612; 34220736; 34219864; 34218988;
  34218112; 34217236; 34216360; 34215484; 34214608; 34213732; 34212852; 34211976; 34211096; 34210216; 34209340; 34208460; 34207580; 34206700; 34205816; 34204936; 34204056; 34203172; 34202288; 34201408;
  34200524; 34199640; 34198756; 34197872; 34196984; 34196100; 34195212; 34194328; 34193440; 34192552; 34191664; 34190776; 34189888; 34189000; 34188112; 34187220; 34186332; 34185440; 34184548; 34183660;
  34182768; 34181876; 34180980; 34180088; 34179196; 34178300; 34177408; 34176512; 34175616; 34174720; 34173824; 34172928; 34172032; 34171132; 34170236; 34169336; 34168440; 34167540; 34166640; 34165740;
  34164840; 34163940; 34163036; 34162136; 34161232; 34160332; 34159428; 34158524; 34157620; 34156716; 34155812; 34154904; 34154000; 34153092; 34152188; 34151280; 34150372; 34149464; 34148556; 34147648;
  34146740; 34145828; 34144920; 34144008; 34143096; 34142184; 34141272; 34140360; 34139448; 34138536; 34137620; 34136708; 34135792; 34134876; 34133964; 34133048; 34132132; 34131212; 34130296; 34129380;
  34128460; 34127540; 34126624; 34125704; 34124784; 34123864; 34122940; 34122020; 34121100; 34120176; 34119252; 34118332; 34117408; 34116484; 34115560; 34114632; 34113708; 34112784; 34111856; 34110928;
  34110000; 34109076; 34108148; 34107216; 34106288; 34105360; 34104428; 34103500; 34102568; 34101636; 34100704; 34099772; 34098840; 34097904; 34096972; 34096036; 34095104; 34094168; 34093232; 34092296;
  34091360; 34090424; 34089484; 34088548; 34087608; 34086672; 34085732; 34084792; 34083852; 34082908; 34081968; 34081028; 34080084; 34079144; 34078200; 34077256; 34076312; 34075368; 34074420; 34073476;
  34072532; 34071584; 34070636; 34069688; 34068740; 34067792; 34066844; 34065896; 34064944; 34063996; 34063044; 34062092; 34061140; 34060188; 34059236; 34058284; 34057328; 34056376; 34055420; 34054464;
  34053508; 34052552; 34051596; 34050640; 34049680; 34048724; 34047764; 34046808; 34045848; 34044888; 34043928; 34042964; 34042004; 34041040; 34040080; 34039116; 34038152; 34037188; 34036224; 34035260;
  34034292; 34033328; 34032360; 34031396; 34030428; 34029460; 34028492; 34027520; 34026552; 34025580; 34024612; 34023640; 34022668; 34021696; 34020724; 34019752; 34018776; 34017804; 34016828; 34015856;
  34014880; 34013904; 34012928; 34011948; 34010972; 34009992; 34009016; 34008036; 34007056; 34006076; 34005096; 34004116; 34003132; 34002152; 34001168; 34000184; 33999200; 33998216; 33997232; 33996248;
  33995260; 33994276; 33993288; 33992300; 33991312; 33990324; 33989336; 33988344; 33987356; 33986364; 33985376; 33984384; 33983392; 33982400; 33981404; 33980412; 33979416; 33978424; 33977428; 33976432;
  33975436; 33974440; 33973440; 33972444; 33971444; 33970448; 33969448; 33968448; 33967448; 33966444; 33965444; 33964444; 33963440; 33962436; 33961432; 33960428; 33959424; 33958420; 33957412; 33956408].
Definition values_16 : list Z := [
  33955400; 33954392; 33953384; 33952376; 33951368; 33950356; 33949348; 33948336; 33947324; 33946312; 33945300; 33944288; 33943276; 33942260; 33941244; 33940232; 33939216; 33938200; 33937180; 33936164;
  33935148; 33934128; 33933108; 33932092; 33931072; 33930048; 33929028; 33928008; 33926984; 33925960; 33924940; 33923916; 33922888; 33921864; 33920840; 33919812; 33918788; 33917760; 33916732; 33915704;
  33914672; 33913644; 33912616; 33911584; 33910552; 33909520; 33908488; 33907456; 33906420; 33905388; 33904352; 33903320; 33902284; 33901244; 33900208; 33899172; 33898132; 33897096; 33896056; 33895016;
  33893976; 33892936; 33891892; 33890852; 33889808; 33888764; 33887720; 33886676; 33885632; 33884588; 33883540; 33882492; 33881448; 33880400; 33879352; 33878300; 33877252; 33876200; 33875152; 33874100;
  33873048; 33871996; 33870940; 33869888; 33868832; 33867780; 33866724; 33865668; 33864612; 33863552; 33862496; 33861436; 33860376; 33859320; 33858256; 33857196; 33856136; 33855072; 33854012; 33852948;
  33851884; 33850820; 33849756; 33848688; 33847624; 33846556; 33845488; 33844420; 33843352; 33842284; 33841212; 33840140; 33839072; 33838000; 33836928; 33835852; 33834780; 33833704; 33832632; 33831556;
  33830480; 33829404; 33828328; 33827248; 33826168; 33825092; 33824012; 33822932; 33821848; 33820768; 33819688; 33818604; 33817520; 33816436; 33815352; 33814264; 33813180; 33812092; 33811008; 33809920;
  33808832; 33807740; 33806652; 33805560; 33804472; 33803380; 33802288; 33801192; 33800100; 33799008; 33797912; 33796816; 33795720; 33794624; 33793528; 33792428; 33791328; 33790232; 33789132; 33788032;
  33786928; 33785828; 33784724; 33783624; 33782520; 33781416; 33780308; 33779204; 33778096; 33776992; 33775884; 33774776; 33773664; 33772556; 33771444; 33770336; 33769224; 33768112; 33767000; 33765884;
  33764772; 33763656; 33762540; 33761424; 33760308; 33759192; 33758072; 33756956; 33755836; 33754716; 33753592; 33752472; 33751352; 33750228; 33749104; 33747980; 33746856; 33745732; 33744604; 33743476;
  33742352; 33741224; 33740092; 33738964; 33737832; 33736704; 33735572; 33734440; 33733308; 33732172; 33731040; 33729904; 33728768; 33727632; 33726496; 33725360; 33724220; 33723080; 33721940; 33720800;
  33719660; 33718520; 33717376; 33716232; 33715088; 33713944; 33712800; 33711652; 33710508; 33709360; 33708212; 33707064; 33705912; 33704764; 33703612; 33702460; 33701308; 33700156; 33699004; 33697848;
  33696696; 33695540; 33694384; 33693224; 33692068; 33690908; 33689748; 33688588; 33687428; 33686268; 33685104; 33683944; 33682780; 33681616; 33680452; 33679284; 33678120; 33676952; 33675784; 33674616;
  33673448; 33672276; 33671104; 33669936; 33668764; 33667588; 33666416; 33665240; 33664068; 33662892; 33661716; 33660536; 33659360; 33658180; 33657000; 33655820; 33654640; 33653460; 33652276; 33651092;
  33649908; 33648724; 33647540; 33646352; 33645168; 33643980; 33642792; 33641600; 33640412; 33639220; 33638032; 33636840; 33635644; 33634452; 33633256; 33632064; 33630868; 33629672; 33628472; 33627276;
  33626076; 33624876; 33623676; 33622476; 33621272; 33620072; 33618868; 33617664; 33616460; 33615252; 33614048; 33612840; 33611632; 33610424; 33609212; 33608004; 33606792; 33605580; 33604368; 33603156;
  33601940; 33600724; 33599508; 33598292; 33597076; 33595860; 33594640; 33593420; 33592200; 33590980; 33589756; 33588532; 33587308; 33586084; 33584860; 33583636; 33582408; 33581180; 33579952; 33578724;
  33577492; 33576264; 33575032; 33573800; 33572564; 33571332; 33570096; 33568860; 33567624; 33566388; 33565152; 33563912; 33562672; 33561432; 33560192; 33558948; 33557708; 33556464; 33555220; 33553974;
  33552728; 33551480; 33550232; 33548984; 33547734; 33546484; 33545234; 33543982; 33542730; 33541476; 33540222; 33538966; 33537710; 33536454; 33535196; 33533938; 33532680; 33531420; 33530158; 33528896;
  33527634; 33526370; 33525106; 33523842; 33522576; 33521308; 33520040; 33518772; 33517504; 33516234; 33514962; 33513690; 33512418; 33511144; 33509870; 33508594; 33507318; 33506042; 33504764; 33503484;
  33502206; 33500924; 33499644; 33498362; 33497078; 33495794; 33494510; 33493224; 33491938; 33490650; 33489362; 33488074; 33486784; 33485492; 33484200; 33482908; 33481614; 33480320; 33479026; 33477728;
  33476432; 33475134; 33473836; 33472536; 33471236; 33469934; 33468632; 33467328; 33466024; 33464720; 33463414; 33462106; 33460798; 33459490; 33458180; 33456870; 33455560; 33454248; 33452934; 33451620;
  33450306; 33448990; 33447672; 33446354; 33445036; 33443716; 33442396; 33441076; 33439754; 33438430; 33437106; 33435782; 33434456; 33433128; 33431800; 33430472; 33429142; 33427812; 33426480; 33425148;
  33423814; 33422480; 33421146; 33419810; 33418472; 33417134; 33415796; 33414456; 33413116; 33411774; 33410430; 33409088; 33407742; 33406396; 33405050; 33403704; 33402354; 33401006; 33399656; 33398304;
  33396952; 33395598; 33394244; 33392890; 33391534; 33390176; 33388818; 33387460; 33386100; 33384738; 33383376; 33382014; 33380650; 33379286; 33377920; 33376554; 33375186; 33373816; 33372448; 33371076;
  33369704; 33368332; 33366958; 33365584; 33364208; 33362832; 33361454; 33360076; 33358696; 33357316; 33355934; 33354552; 33353168; 33351784; 33350398; 33349012; 33347624; 33346236; 33344846; 33343456;
  33342064; 33340672; 33339278; 33337882; 33336488; 33335090; 33333692; 33332294; 33330894; 33329494; 33328092; 33326688; 33325284; 33323880; 33322474; 33321068; 33319660; 33318250; 33316840; 33315428;
  33314016; 33312604; 33311190; 33309774; 33308358; 33306940; 33305522; 33304102; 33302682; 33301260; 33299838; 33298414; 33296990; 33295564; 33294136; 33292708; 33291280; 33289850; 33288418; 33286986;
  33285552; 33284118; 33282682; 33281246; 33279808; 33278370; 33276930; 33275490; 33274048; 33272604; 33271160; 33269714; 33268268; 33266822; 33265372; 33263924; 33262472; 33261020; 33259568; 33258114;
  33256658; 33255202; 33253746; 33252286; 33250828; 33249366; 33247904; 33246442; 33244978; 33243512; 33242046; 33240580; 33239110; 33237642; 33236170; 33234698; 33233226; 33231752; 33230276; 33228800;
  33227322; 33225844; 33224364; 33222884; 33221400; 33219918; 33218434; 33216948; 33215462; 33213974; 33212484; 33210994; 33209502; 33208010; 33206516; 33205022; 33203526; 33202028; 33200530; 33199032;
  33197530; 33196028; 33194526; 33193022; 33191516; 33190010; 33188502; 33186992; 33185482; 33183972; 33182460; 33180946; 33179430; 33177914; 33176398; 33174878; 33173360; 33171838; 33170316; 33168792;
  33167268; 33165742; 33164216; 33162688; 33161158; 33159628; 33158096; 33156564; 33155028; 33153494; 33151956; 33150418; 33148880; 33147340; 33145798; 33144256; 33142710; 33141166; 33139620; 33138072;
  33136522; 33134972; 33133420; 33131868; 33130314; 33128758; 33127202; 33125644; 33124084; 33122524; 33120962; 33119400; 33117836; 33116270; 33114704; 33113136; 33111566; 33109996; 33108424; 33106850;
  33105276; 33103700; 33102124; 33100546; 33098966; 33097384; 33095802; 33094220; 33092634; 33091048; 33089460; 33087872; 33086282; 33084690; 33083098; 33081504; 33079908; 33078312; 33076714; 33075114;
  33073514; 33071912; 33070310; 33068704; 33067098; 33065492; 33063882; 33062272; 33060662; 33059048; 33057434; 33055820; 33054202; 33052584; 33050966; 33049344; 33047722; 33046098; 33044474; 33042848;
  33041220; 33039590; 33037960; 33036328; 33034696; 33033060; 33031426; 33029788; 33028150; 33026508; 33024868; 33023224; 33021580; 33019934; 33018288; 33016638; 33014988; 33013338; 33011684; 33010030;
  33008376; 33006718; 33005060; 33003400; 33001738; 33000076; 32998412; 32996746; 32995080; 32993410; 32991740; 32990070; 32988396; 32986722; 32985046; 32983370; 32981690; 32980010; 32978330; 32976646;
  32974962; 32973276; 32971588; 32969900; 32968208; 32966518; 32964824; 32963128; 32961432; 32959734; 32958036; 32956334; 32954632; 32952928; 32951224; 32949516; 32947808; 32946098; 32944388; 32942674;
  32940960; 32939244; 32937526; 32935808; 32934088; 32932366; 32930642; 32928916; 32927190; 32925462; 32923732; 32922000; 32920268; 32918534; 32916798; 32915060; 32913322; 32911580; 32909838; 32908094;
  32906350; 32904602; 32902854; 32901104; 32899352; 32897600; 32895844; 32894088; 32892330; 32890570; 32888810; 32887046; 32885282; 32883516; 32881748; 32879980; 32878208; 32876436; 32874662; 32872886;
  32871108; 32869330; 32867548; 32865766; 32863982; 32862198; 32860410; 32858622; 32856830; 32855038; 32853244; 32851450; 32849652; 32847854; 32846052; 32844250; 32842446; 32840642; 32838834; 32837026;
  32835214; 32833402; 32831588; 32829772; 32827956; 32826136; 32824316; 32822494; 32820670; 32818844; 32817016; 32815186; 32813356; 32811522; 32809688; 32807852; 32806014; 32804174; 32802332; 32800490;
  32798644; 32796798; 32794948; 32793098; 32791246; 32789392; 32787538; 32785680; 32783820; 32781960; 32780098; 32778232; 32776366; 32774498; 32772628; 32770756; 32768884; 32767008; 32765130; 32763252;
  32761372; 32759488; 32757604; 32755718; 32753830; 32751940; 32750048; 32748154; 32746260; 32744362; 32742464; 32740562; 32738660; 32736754; 32734848; 32732940; 32731030; 32729118; 32727204; 32725288;
  32723370; 32721450; 32719528; 32717604; 32715680; 32713752; 32711822; 32709892; 32707958; 32706024; 32704086; 32702148; 32700206; 32698264; 32696320; 32694374; 32692424; 32690474; 32688522; 32686568;
  32684610; 32682652; 32680692; 32678730; 32676766; 32674800; 32672832; 32670860; 32668888; 32666914; 32664938; 32662960; 32660980; 32658998; 32657014; 32655026; 32653038; 32651048; 32649056; 32647062;
  32645066; 32643066; 32641066; 32639064; 32637058; 32635052; 32633044; 32631032; 32629020; 32627004; 32624988; 32622968; 32620946; 32618924; 32616898; 32614870; 32612840; 32610808; 32608774; 32606738;
  32604700; 32602660; 32600618; 32598574; 32596526; 32594478; 32592426; 32590374; 32588318; 32586260; 32584202; 32582140; 32580076; 32578010; 32575940; 32573870; 32571798; 32569722; 32567646; 32565566;
  32563484; 32561400; 32559314; 32557226; 32555136; 32553042; 32550948; 32548850; 32546752; 32544650; 32542546; 32540440; 32538330; 32536220; 32534106; 32531992; 32529874; 32527754; 32525632; 32523506].
Definition values_17 : list Z := [
  32521380; 32519250; 32517120; 32514986; 32512850; 32510710; 32508570; 32506426; 32504282; 32502134; 32499984; 32497830; 32495676; 32493518; 32491358; 32489196; 32487032; 32484866; 32482696; 32480524;
  32478350; 32476174; 32473994; 32471814; 32469630; 32467444; 32465254; 32463064; 32460870; 32458674; 32456476; 32454274; 32452072; 32449866; 32447656; 32445446; 32443232; 32441016; 32438798; 32436578;
  32434354; 32432128; 32429900; 32427668; 32425436; 32423200; 32420960; 32418720; 32416476; 32414230; 32411980; 32409730; 32407476; 32405218; 32402960; 32400698; 32398434; 32396166; 32393896; 32391624;
  32389350; 32387072; 32384792; 32382508; 32380224; 32377934; 32375644; 32373350; 32371054; 32368756; 32366454; 32364150; 32361842; 32359534; 32357220; 32354906; 32352588; 32350268; 32347944; 32345618;
  32343290; 32340958; 32338624; 32336286; 32333946; 32331604; 32329258; 32326910; 32324560; 32322206; 32319848; 32317488; 32315126; 32312762; 32310394; 32308022; 32305648; 32303272; 32300892; 32298510;
  32296126; 32293738; 32291346; 32288952; 32286556; 32284156; 32281754; 32279348; 32276938; 32274528; 32272114; 32269696; 32267276; 32264852; 32262426; 32259996; 32257564; 32255128; 32252690; 32250250;
  32247804; 32245358; 32242906; 32240454; 32237996; 32235538; 32233074; 32230610; 32228140; 32225668; 32223194; 32220716; 32218234; 32215750; 32213262; 32210772; 32208278; 32205782; 32203280; 32200778;
  32198272; 32195762; 32193250; 32190734; 32188214; 32185692; 32183166; 32180638; 32178106; 32175570; 32173032; 32170490; 32167944; 32165396; 32162844; 32160290; 32157730; 32155170; 32152604; 32150036;
  32147464; 32144890; 32142312; 32139730; 32137144; 32134556; 32131964; 32129370; 32126770; 32124168; 32121564; 32118954; 32116342; 32113726; 32111108; 32108484; 32105858; 32103230; 32100596; 32097960;
  32095320; 32092676; 32090028; 32087378; 32084724; 32082066; 32079404; 32076740; 32074072; 32071398; 32068724; 32066044; 32063360; 32060674; 32057984; 32055290; 32052592; 32049892; 32047186; 32044478;
  32041766; 32039050; 32036330; 32033606; 32030880; 32028148; 32025414; 32022676; 32019934; 32017188; 32014438; 32011684; 32008926; 32006164; 32003400; 32000630; 31997858; 31995082; 31992300; 31989516;
  31986728; 31983936; 31981140; 31978340; 31975536; 31972728; 31969916; 31967100; 31964280; 31961456; 31958628; 31955796; 31952958; 31950118; 31947274; 31944426; 31941574; 31938718; 31935858; 31932992;
  31930124; 31927252; 31924374; 31921492; 31918608; 31915718; 31912824; 31909926; 31907024; 31904118; 31901208; 31898292; 31895374; 31892450; 31889522; 31886590; 31883654; 31880714; 31877768; 31874818;
  31871866; 31868908; 31865944; 31862978; 31860006; 31857030; 31854050; 31851066; 31848078; 31845084; 31842086; 31839084; 31836076; 31833064; 31830048; 31827028; 31824002; 31820972; 31817938; 31814900;
  31811856; 31808808; 31805754; 31802696; 31799634; 31796568; 31793496; 31790420; 31787338; 31784252; 31781162; 31778066; 31774966; 31771860; 31768750; 31765636; 31762516; 31759392; 31756262; 31753128;
  31749990; 31746846; 31743696; 31740542; 31737384; 31734220; 31731050; 31727876; 31724698; 31721514; 31718326; 31715130; 31711932; 31708728; 31705518; 31702304; 31699084; 31695858; 31692628; 31689394;
  31686152; 31682908; 31679656; 31676400; 31673138; 31669872; 31666600; 31663322; 31660038; 31656750; 31653456; 31650158; 31646854; 31643544; 31640228; 31636908; 31633582; 31630250; 31626912; 31623568;
  31620220; 31616866; 31613506; 31610142; 31606770; 31603394; 31600012; 31596624; 31593230; 31589832; 31586426; 31583016; 31579598; 31576176; 31572748; 31569314; 31565874; 31562428; 31558976; 31555518;
  31552054; 31548586; 31545110; 31541628; 31538140; 31534648; 31531148; 31527642; 31524130; 31520612; 31517088; 31513558; 31510022; 31506478; 31502930; 31499374; 31495814; 31492246; 31488672; 31485092;
  31481504; 31477912; 31474312; 31470706; 31467094; 31463476; 31459850; 31456218; 31452580; 31448936; 31445284; 31441626; 31437962; 31434290; 31430612; 31426928; 31423236; 31419538; 31415834; 31412122;
  31408404; 31404678; 31400946; 31397206; 31393460; 31389708; 31385948; 31382182; 31378408; 31374626; 31370838; 31367044; 31363242; 31359432; 31355616; 31351792; 31347962; 31344124; 31340278; 31336426;
  31332566; 31328698; 31324824; 31320942; 31317052; 31313156; 31309250; 31305338; 31301420; 31297492; 31293558; 31289616; 31285666; 31281708; 31277742; 31273770; 31269788; 31265800; 31261804; 31257800;
  31253788; 31249766; 31245738; 31241702; 31237658; 31233606; 31229546; 31225478; 31221402; 31217318; 31213224; 31209124; 31205014; 31200896; 31196770; 31192636; 31188494; 31184342; 31180184; 31176014;
  31171838; 31167654; 31163460; 31159258; 31155046; 31150826; 31146598; 31142362; 31138116; 31133860; 31129596; 31125324; 31121042; 31116752; 31112452; 31108144; 31103826; 31099500; 31095164; 31090818;
  31086464; 31082100; 31077728; 31073344; 31068952; 31064552; 31060142; 31055720; 31051292; 31046852; 31042402; 31037944; 31033476; 31028998; 31024510; 31020012; 31015504; 31010988; 31006460; 31001922;
  30997374; 30992818; 30988250; 30983672; 30979084; 30974486; 30969876; 30965258; 30960628; 30955988; 30951338; 30946676; 30942006; 30937324; 30932630; 30927928; 30923212; 30918488; 30913752; 30909004;
  30904246; 30899478; 30894698; 30889908; 30885106; 30880292; 30875468; 30870632; 30865784; 30860926; 30856054; 30851174; 30846280; 30841376; 30836458; 30831530; 30826590; 30821638; 30816674; 30811698;
  30806710; 30801710; 30796698; 30791674; 30786638; 30781590; 30776528; 30771456; 30766370; 30761272; 30756160; 30751036; 30745900; 30740752; 30735590; 30730414; 30725226; 30720026; 30714812; 30709586;
  30704346; 30699092; 30693824; 30688544; 30683252; 30677944; 30672624; 30667288; 30661940; 30656578; 30651202; 30645814; 30640410; 30634992; 30629560; 30624114; 30618652; 30613178; 30607688; 30602184;
  30596666; 30591134; 30585586; 30580022; 30574446; 30568854; 30563246; 30557622; 30551986; 30546332; 30540664; 30534980; 30529280; 30523566; 30517834; 30512088; 30506326; 30500548; 30494754; 30488944;
  30483116; 30477274; 30471414; 30465538; 30459646; 30453738; 30447812; 30441870; 30435910; 30429934; 30423940; 30417930; 30411902; 30405858; 30399794; 30393714; 30387616; 30381500; 30375366; 30369216;
  30363046; 30356858; 30350652; 30344426; 30338184; 30331922; 30325642; 30319342; 30313024; 30306688; 30300332; 30293956; 30287562; 30281146; 30274712; 30268260; 30261786; 30255292; 30248780; 30242246;
  30235692; 30229118; 30222522; 30215906; 30209270; 30202614; 30195934; 30189236; 30182514; 30175772; 30169008; 30162222; 30155416; 30148586; 30141734; 30134862; 30127966; 30121046; 30114106; 30107142;
  30100154; 30093144; 30086110; 30079054; 30071974; 30064870; 30057742; 30050590; 30043414; 30036214; 30028988; 30021740; 30014464; 30007166; 29999842; 29992492; 29985116; 29977716; 29970290; 29962836;
  29955358; 29947852; 29940322; 29932764; 29925178; 29917566; 29909926; 29902260; 29894566; 29886842; 29879092; 29871314; 29863508; 29855672; 29847808; 29839914; 29831992; 29824040; 29816058; 29808046;
  29800006; 29791934; 29783832; 29775698; 29767534; 29759340; 29751114; 29742856; 29734566; 29726244; 29717888; 29709502; 29701082; 29692630; 29684144; 29675624; 29667070; 29658482; 29649860; 29641204;
  29632512; 29623786; 29615024; 29606226; 29597392; 29588522; 29579614; 29570672; 29561690; 29552672; 29543618; 29534524; 29525392; 29516220; 29507010; 29497762; 29488472; 29479144; 29469776; 29460366;
  29450916; 29441424; 29431890; 29422316; 29412698; 29403038; 29393334; 29383588; 29373796; 29363962; 29354082; 29344158; 29334188; 29324172; 29314112; 29304002; 29293848; 29283646; 29273394; 29263096;
  29252748; 29242352; 29231906; 29221410; 29210864; 29200266; 29189618; 29178916; 29168164; 29157358; 29146498; 29135584; 29124616; 29113594; 29102516; 29091382; 29080190; 29068944; 29057638; 29046274;
  29034852; 29023370; 29011828; 29000226; 28988562; 28976836; 28965048; 28953198; 28941284; 28929304; 28917260; 28905150; 28892974; 28880730; 28868420; 28856040; 28843592; 28831072; 28818482; 28805822;
  28793088; 28780282; 28767400; 28754446; 28741414; 28728308; 28715122; 28701860; 28688518; 28675096; 28661594; 28648010; 28634342; 28620592; 28606756; 28592836; 28578828; 28564732; 28550548; 28536274;
  28521908; 28507452; 28492902; 28478256; 28463516; 28448678; 28433744; 28418710; 28403576; 28388340; 28373000; 28357556; 28342006; 28326350; 28310586; 28294710; 28278724; 28262624; 28246412; 28230082;
  28213634; 28197068; 28180380; 28163570; 28146636; 28129576; 28112388; 28095070; 28077620; 28060038; 28042320; 28024464; 28006468; 27988332; 27970052; 27951626; 27933052; 27914326; 27895450; 27876418;
  27857228; 27837878; 27818366; 27798690; 27778844; 27758828; 27738640; 27718274; 27697730; 27677004; 27656092; 27634992; 27613702; 27592214; 27570530; 27548644; 27526552; 27504250; 27481736; 27459004;
  27436052; 27412876; 27389470; 27365832; 27341954; 27317836; 27293468; 27268850; 27243974; 27218838; 27193432; 27167756; 27141800; 27115560; 27089030; 27062204; 27035076; 27007640; 26979888; 26951812;
  26923408; 26894666; 26865580; 26836140; 26806342; 26776172; 26745626; 26714692; 26683364; 26651628; 26619478; 26586900; 26553886; 26520424; 26486502; 26452108; 26417230; 26381854; 26345970; 26309558;
  26272608; 26235104; 26197030; 26158368; 26119104; 26079216; 26038688; 25997500; 25955630; 25913058; 25869762; 25825718; 25780902; 25735286; 25688846; 25641550; 25593372; 25544280; 25494238; 25443214;
  25391170; 25338068; 25283866; 25228522; 25171988; 25114220; 25055162; 24994762; 24932960; 24869696; 24804902; 24738512; 24670446; 24600628; 24528968; 24455376; 24379754; 24301994; 24221982; 24139592;
  24054690; 23967132; 23876756; 23783394; 23686856; 23586936; 23483408; 23376022; 23264506; 23148556; 23027834; 22901966; 22770530; 22633058; 22489014; 22337798; 22178724; 22011004; 21833732; 21645860;
  21446158; 21233184; 21005220; 20760208; 20495650; 20208478; 19894872; 19549988; 19167576; 18739376; 18254184; 17696286; 17042732; 16258252; 15285047; 14020599; 12268339; 9673055; 0; 0].

(** The whole table, from 18000 observations down to one. *)
Definition table_values : list Z :=
  values_00 ++ values_01 ++ values_02 ++ values_03 ++ values_04 ++ values_05 ++ values_06 ++ values_07 ++ values_08 ++ values_09 ++ values_10 ++ values_11 ++ values_12 ++ values_13 ++ values_14 ++ values_15 ++ values_16 ++ values_17.
