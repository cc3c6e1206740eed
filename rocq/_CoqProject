-Q theories Verif
theories/Bytes.v
theories/Codec.v
theories/Model.v
theories/Wire.v
theories/CodecProofs.v
theories/WireProofs.v
theories/Order.v
theories/Wp.v
theories/Store.v
theories/Tree.v
theories/Iter.v
theories/Read.v
theories/Zip.v
theories/Pure.v
theories/Seq.v
theories/Mut.v
theories/Guard.v
theories/MutDel.v
theories/MutTop.v
theories/Commit.v
theories/Spec.v
theories/OrderProofs.v
theories/Client.v
theories/Abs.v
theories/Api.v
theories/Call.v
theories/Det.v
theories/Reader.v
theories/Hist.v
theories/Busy.v
theories/Play.v
theories/Main.v
theories/Count.v
theories/CountProofs.v
theories/Shape.v
theories/Own.v
theories/Found.v
theories/Foreign.v
theories/Hand.v
theories/Subs.v
theories/Sub.v
theories/Threads.v
theories/Conc.v
theories/Demo.v
theories/Raw.v
theories/Utf8.v
theories/PrintProofs.v
theories/Scan.v
theories/Poll.v
theories/PollProofs.v
theories/Ffi.v
theories/FfiProofs.v
theories/Refute.v
theories/Opaque.v
theories/Truth.v
theories/Thin.v
theories/Flow.v
theories/Cffi.v
theories/CffiProofs.v
theories/CffiNeeds.v
theories/Fuel.v
theories/Dry.v
theories/Locks.v
theories/LockProofs.v
theories/Alone.v
theories/Apart.v
theories/LockCases.v
theories/Replica.v
theories/ReplicaProofs.v
theories/Properties.v
