-Q theories Verif
theories/Lib.v
theories/M_Array.v
theories/M_Bag.v
theories/M_Circular.v
theories/M_Ckfile.v
theories/M_Ckpt.v
theories/M_Conc.v
theories/M_ConcRun.v
theories/M_ConcScan.v
theories/M_Destroy.v
theories/M_Fuzzy.v
theories/M_JsonText.v
theories/M_Jsonobj.v
theories/M_Key.v
theories/M_Kvio.v
theories/M_Layers.v
theories/M_Leafread.v
theories/M_Limbo.v
theories/M_Link.v
theories/M_Log.v
theories/M_Logbuf.v
theories/M_Logfile.v
theories/M_Logset.v
theories/M_Msgpack.v
theories/M_Natcmp.v
theories/M_Permuter.v
theories/M_Pool.v
theories/M_Query.v
theories/M_Rcu.v
theories/M_Replay.v
theories/M_Restart.v
theories/M_Rowrun.v
theories/M_Rowver.v
theories/M_Scan.v
theories/M_ScanRun.v
theories/M_Search.v
theories/M_Smallvec.v
theories/M_Stamp.v
theories/M_Stampc.v
theories/M_Strenc.v
theories/M_Strfind.v
theories/M_StringRep.v
theories/M_Stringbag.v
theories/M_Strnum.v
theories/M_Strrow.v
theories/M_Tree.v
theories/M_Tstamp.v
theories/M_Version.v
theories/P_Array.v
theories/P_Bag1.v
theories/P_Bag2.v
theories/P_Bag3.v
theories/P_Circular.v
theories/P_Ckfile1.v
theories/P_Ckfile2.v
theories/P_Ckfile3.v
theories/P_Ckpt1.v
theories/P_Ckpt2.v
theories/P_Ckpt3.v
theories/P_Ckpt4.v
theories/P_Conc1.v
theories/P_Conc10.v
theories/P_Conc11.v
theories/P_Conc12.v
theories/P_Conc13.v
theories/P_Conc14.v
theories/P_Conc15.v
theories/P_Conc16.v
theories/P_Conc16b.v
theories/P_Conc17.v
theories/P_Conc18.v
theories/P_Conc19.v
theories/P_Conc2.v
theories/P_Conc20.v
theories/P_Conc21.v
theories/P_Conc22.v
theories/P_Conc23.v
theories/P_Conc24.v
theories/P_Conc25.v
theories/P_Conc26.v
theories/P_Conc27.v
theories/P_Conc28.v
theories/P_Conc29.v
theories/P_Conc3.v
theories/P_Conc30.v
theories/P_Conc31.v
theories/P_Conc4.v
theories/P_Conc5.v
theories/P_Conc6.v
theories/P_Conc7.v
theories/P_Conc8.v
theories/P_Conc9.v
theories/P_ConcR.v
theories/P_Destroy1.v
theories/P_Destroy2.v
theories/P_Destroy3.v
theories/P_Fuzzy1.v
theories/P_Fuzzy2.v
theories/P_Fuzzy3.v
theories/P_JsonText1.v
theories/P_JsonText10.v
theories/P_JsonText2.v
theories/P_JsonText3.v
theories/P_JsonText4.v
theories/P_JsonText5.v
theories/P_JsonText6.v
theories/P_JsonText7.v
theories/P_JsonText8.v
theories/P_JsonText9.v
theories/P_Jsonobj1.v
theories/P_Jsonobj2.v
theories/P_Jsonobj3.v
theories/P_Jsonobj4.v
theories/P_Jsonobj5.v
theories/P_Key.v
theories/P_Kvio.v
theories/P_Layers1.v
theories/P_Layers2.v
theories/P_Layers3.v
theories/P_Layers4.v
theories/P_Layers5.v
theories/P_Layers6.v
theories/P_Layers7.v
theories/P_Leafread1.v
theories/P_Leafread2.v
theories/P_Leafread3.v
theories/P_Leafread4.v
theories/P_Leafread5.v
theories/P_Leafread6.v
theories/P_Leafread7.v
theories/P_Leafread8.v
theories/P_Leafread9.v
theories/P_Limbo1.v
theories/P_Limbo2.v
theories/P_Limbo3.v
theories/P_Link1.v
theories/P_Link2.v
theories/P_Link3.v
theories/P_Link4.v
theories/P_Link5.v
theories/P_Link6.v
theories/P_Link7.v
theories/P_Log1.v
theories/P_Log2.v
theories/P_Log3.v
theories/P_Log4.v
theories/P_Logbuf1.v
theories/P_Logbuf2.v
theories/P_Logbuf3.v
theories/P_Logbuf4.v
theories/P_Logbuf5.v
theories/P_Logbuf6.v
theories/P_Logbuf7.v
theories/P_Logset.v
theories/P_Msgpack1.v
theories/P_Msgpack2.v
theories/P_Msgpack3.v
theories/P_Msgpack4.v
theories/P_Msgpack5.v
theories/P_Msgpack6.v
theories/P_Msgpack7.v
theories/P_Natcmp.v
theories/P_Natcmp2.v
theories/P_Natcmp3.v
theories/P_Natcmp4.v
theories/P_Permuter.v
theories/P_Permuter2.v
theories/P_Pool1.v
theories/P_Pool2.v
theories/P_Query.v
theories/P_Rcu.v
theories/P_Recover.v
theories/P_Recover2.v
theories/P_Replay1.v
theories/P_Replay2.v
theories/P_Replay3.v
theories/P_Replay4.v
theories/P_Replay5.v
theories/P_Restart1.v
theories/P_Restart2.v
theories/P_Route.v
theories/P_Row.v
theories/P_Rowver1.v
theories/P_Rowver2.v
theories/P_Rowver3.v
theories/P_Rowver4.v
theories/P_Scan1.v
theories/P_Scan2.v
theories/P_Scan3.v
theories/P_Scan4.v
theories/P_Scan5.v
theories/P_ScanA1.v
theories/P_ScanA2.v
theories/P_ScanA3.v
theories/P_ScanA4.v
theories/P_ScanA5.v
theories/P_Search.v
theories/P_Smallvec1.v
theories/P_Smallvec2.v
theories/P_Smallvec3.v
theories/P_Smallvec4.v
theories/P_Snap1.v
theories/P_Stamp1.v
theories/P_Stamp2.v
theories/P_Stamp3.v
theories/P_Stampc1.v
theories/P_Stampc2.v
theories/P_Stampc3.v
theories/P_Stampc4.v
theories/P_Strcol.v
theories/P_Strenc1.v
theories/P_Strenc2.v
theories/P_Strenc3.v
theories/P_Strfind1.v
theories/P_Strfind2.v
theories/P_Strfind3.v
theories/P_StringRep1.v
theories/P_StringRep2.v
theories/P_StringRep3.v
theories/P_StringRep4.v
theories/P_StringRep5.v
theories/P_Stringbag.v
theories/P_Strnum.v
theories/P_Strrow.v
theories/P_Tree1.v
theories/P_Tree2.v
theories/P_Tree3.v
theories/P_Tree4.v
theories/P_Tree4b.v
theories/P_Tree5.v
theories/P_Tree5b.v
theories/P_Tree6.v
theories/P_Tree6b.v
theories/P_Tree6c.v
theories/P_Tree6d.v
theories/P_Tree6e.v
theories/P_Tree6f.v
theories/P_Tree7.v
theories/P_Tree7b.v
theories/P_Tree7c.v
theories/P_Tree7d.v
theories/P_Tree7e.v
theories/P_Tree8.v
theories/P_Tree8b.v
theories/P_Tree9.v
theories/P_Tree9b.v
theories/P_Tstamp.v
theories/P_Version.v
theories/P_Version2.v
theories/Spec_Ckfile.v
theories/Spec_Ckpt.v
theories/Spec_Conc.v
theories/Spec_Conc2.v
theories/Spec_ConcScan.v
theories/Spec_Destroy.v
theories/Spec_Fuzzy.v
theories/Spec_JsonLax.v
theories/Spec_JsonText.v
theories/Spec_Jsonobj.v
theories/Spec_Kvio.v
theories/Spec_Layers.v
theories/Spec_Leafread.v
theories/Spec_Limbo.v
theories/Spec_Link.v
theories/Spec_Live.v
theories/Spec_Log.v
theories/Spec_Logbuf.v
theories/Spec_Map.v
theories/Spec_Msgpack.v
theories/Spec_Natcmp.v
theories/Spec_Pool.v
theories/Spec_Query.v
theories/Spec_Rcu.v
theories/Spec_Replay.v
theories/Spec_Restart.v
theories/Spec_Route.v
theories/Spec_Row.v
theories/Spec_Rowver.v
theories/Spec_Scan.v
theories/Spec_Smallvec.v
theories/Spec_Stamp.v
theories/Spec_Strenc.v
theories/Spec_Strfind.v
theories/Spec_String.v
theories/Spec_StringRep.v
theories/Spec_Strnum.v
theories/Spec_Strrow.v
theories/Spec_Tstamp.v
theories/T_Circular.v
theories/T_Ckfile.v
theories/T_Ckpt.v
theories/T_Conc.v
theories/T_ConcScan.v
theories/T_Destroy.v
theories/T_Fuzzy.v
theories/T_JsonText.v
theories/T_Jsonobj.v
theories/T_Key.v
theories/T_Kvio.v
theories/T_Layers.v
theories/T_Leafread.v
theories/T_Limbo.v
theories/T_Link.v
theories/T_Live.v
theories/T_Log.v
theories/T_Logbuf.v
theories/T_Logset.v
theories/T_Msgpack.v
theories/T_Natcmp.v
theories/T_Permuter.v
theories/T_Pool.v
theories/T_Query.v
theories/T_Rcu.v
theories/T_Replay.v
theories/T_Restart.v
theories/T_Route.v
theories/T_Row.v
theories/T_Rowver.v
theories/T_Scan.v
theories/T_Search.v
theories/T_Smallvec.v
theories/T_Snap1.v
theories/T_Stamp.v
theories/T_Strcol.v
theories/T_Strenc.v
theories/T_Strfind.v
theories/T_StringRep.v
theories/T_Stringbag.v
theories/T_Strnum.v
theories/T_Tree.v
theories/T_Tstamp.v
theories/T_Version.v
