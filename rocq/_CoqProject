-Q theories Verif
theories/Base/Result.v
theories/Cast/Model.v
theories/Cast/Spec.v
theories/Cast/Proofs.v
theories/Cast/Theorems.v
theories/Graph/Dfs.v
theories/Graph/Spec.v
theories/Graph/Proofs.v
theories/Base/Sort.v
theories/Base/SortProofs.v
theories/Base/Slice.v
theories/Base/SliceProofs.v
theories/Base/Text.v
theories/Base/TextProofs.v
theories/Plan/Model.v
theories/Plan/Spec.v
theories/Plan/GraphProofs.v
theories/Plan/Proofs.v
theories/Plan/Theorems.v
theories/MsgGraph/Model.v
theories/MsgGraph/Spec.v
theories/MsgGraph/Proofs.v
theories/MsgGraph/Theorems.v
theories/Exec/Model.v
theories/Exec/Spec.v
theories/Exec/Proofs.v
theories/Exec/More.v
theories/Exec/Deps.v
theories/Exec/Top.v
theories/Exec/Theorems.v
theories/Def/Model.v
theories/Def/Spec.v
theories/Def/Proofs.v
theories/Def/Theorems.v
theories/Err/Model.v
theories/Err/Spec.v
theories/Err/Proofs.v
theories/Err/Race.v
theories/Err/RaceProofs.v
theories/Err/Theorems.v
theories/Call/Retry.v
theories/Call/Timeout.v
theories/Call/Panic.v
theories/Call/Spec.v
theories/Call/RetryProofs.v
theories/Call/TimeoutProofs.v
theories/Call/PanicProofs.v
theories/Call/Theorems.v
theories/Cel/Null.v
theories/Cel/NullSpec.v
theories/Cel/NullProofs.v
theories/Cel/Placeholder.v
theories/Cel/PlaceholderSpec.v
theories/Cel/PlaceholderProofs.v
theories/Cel/ListLib.v
theories/Cel/ListSpec.v
theories/Cel/ListProofs.v
theories/Cel/Theorems.v
theories/Plugin/Codec.v
theories/Plugin/CodecSpec.v
theories/Plugin/CodecProofs.v
theories/Plugin/Instance.v
theories/Plugin/InstanceSpec.v
theories/Plugin/InstanceProofs.v
theories/Plugin/InstanceMore.v
theories/Plugin/Theorems.v
theories/Schema/Model.v
theories/Schema/Spec.v
theories/Schema/Proofs.v
theories/Schema/Bind.v
theories/Schema/BindSpec.v
theories/Schema/BindProofs.v
theories/Schema/Theorems.v
theories/Conv/Enum.v
theories/Conv/EnumSpec.v
theories/Conv/EnumProofs.v
theories/Conv/EnumTheorems.v
theories/Conv/Model.v
theories/Conv/Spec.v
theories/Conv/Proofs.v
theories/Conv/Theorems.v
theories/Conv/Decls.v
theories/Conv/DeclsSpec.v
theories/Conv/DeclsProofs.v
theories/Conv/DeclsCheck.v
theories/Conv/DeclsTheorems.v
theories/Log/Model.v
theories/Log/Spec.v
theories/Log/Proofs.v
theories/Log/Theorems.v
theories/Scope/Model.v
theories/Scope/Spec.v
theories/Scope/Proofs.v
theories/Scope/Theorems.v
theories/Names/Model.v
theories/Names/Spec.v
theories/Names/Proofs.v
theories/Names/Theorems.v
theories/Lookup/Model.v
theories/Lookup/Spec.v
theories/Lookup/Proofs.v
theories/Lookup/Theorems.v
theories/Refs/Model.v
theories/Refs/Spec.v
theories/Refs/Proofs.v
theories/Refs/Theorems.v
theories/Imports/Model.v
theories/Imports/Spec.v
theories/Imports/Proofs.v
theories/Imports/Theorems.v
theories/Cache/Model.v
theories/Cache/Spec.v
theories/Cache/Proofs.v
theories/Cache/Theorems.v
theories/Options/Model.v
theories/Options/Spec.v
theories/Options/Proofs.v
theories/Options/Theorems.v
theories/Regen/Model.v
theories/Regen/Spec.v
theories/Regen/Proofs.v
theories/Regen/Theorems.v
theories/Watch/Model.v
theories/Watch/Spec.v
theories/Watch/Proofs.v
theories/Watch/Theorems.v
theories/Codec/Model.v
theories/Codec/Spec.v
theories/Codec/Proofs.v
theories/Codec/Visits.v
theories/Codec/Transfer.v
theories/Codec/Check.v
theories/Codec/Theorems.v
theories/Deps/Model.v
theories/Deps/Spec.v
theories/Deps/Proofs.v
theories/Deps/Theorems.v
theories/Construct/Model.v
theories/Construct/Spec.v
theories/Construct/Proofs.v
theories/Construct/Theorems.v
theories/Shared/Model.v
theories/Shared/Spec.v
theories/Shared/Proofs.v
theories/Shared/Theorems.v
theories/Args/Model.v
theories/Args/Spec.v
theories/Args/Proofs.v
theories/Args/Theorems.v
theories/Files/Model.v
theories/Files/Spec.v
theories/Files/Proofs.v
theories/Files/Theorems.v
theories/Ident/Model.v
theories/Ident/Spec.v
theories/Ident/Proofs.v
theories/Ident/Theorems.v
theories/Bind/Model.v
theories/Bind/Spec.v
theories/Bind/Proofs.v
theories/Bind/Theorems.v
theories/Bind/AcceptedProofs.v
theories/Bind/Accepted.v
theories/Enums/Model.v
theories/Enums/Spec.v
theories/Enums/Proofs.v
theories/Enums/Theorems.v
theories/Enums/Access.v
theories/Enums/AccessTheorems.v
theories/Enums/Outputs.v
theories/Enums/OutputsTheorems.v
theories/Enums/Select.v
theories/Enums/SelectTheorems.v
theories/Paths/Model.v
theories/Paths/Spec.v
theories/Paths/Proofs.v
theories/Paths/Theorems.v
theories/Paths/Compiled.v
theories/Env/Model.v
theories/Env/Spec.v
theories/Env/Proofs.v
theories/Env/Theorems.v
theories/Env/Types.v
theories/Env/TypesTheorems.v
theories/Logs/Model.v
theories/Logs/Spec.v
theories/Logs/Proofs.v
theories/Logs/Theorems.v
theories/Svcvars/Model.v
theories/Svcvars/Spec.v
theories/Svcvars/Proofs.v
theories/Svcvars/Theorems.v
theories/Reqs/Model.v
theories/Reqs/Spec.v
theories/Reqs/Proofs.v
theories/Reqs/Theorems.v
theories/Texts/Model.v
theories/Texts/Spec.v
theories/Texts/Proofs.v
theories/Texts/Theorems.v
theories/Times/Model.v
theories/Times/Spec.v
theories/Times/Proofs.v
theories/Times/Theorems.v
theories/Bytes/Model.v
theories/Bytes/Spec.v
theories/Bytes/Proofs.v
theories/Bytes/Theorems.v
theories/Locate/Model.v
theories/Locate/Spec.v
theories/Locate/Proofs.v
theories/Locate/Theorems.v
theories/Builders/Model.v
theories/Builders/Spec.v
theories/Builders/Proofs.v
theories/Builders/Theorems.v
theories/Typing/Model.v
theories/Typing/Spec.v
theories/Typing/Proofs.v
theories/Typing/Theorems.v
theories/Diag/Model.v
theories/Diag/Spec.v
theories/Diag/Proofs.v
theories/Diag/Theorems.v
theories/Sync/Model.v
theories/Sync/Spec.v
theories/Sync/Proofs.v
theories/Sync/Theorems.v
theories/Goto/Model.v
theories/Goto/Spec.v
theories/Goto/Proofs.v
theories/Goto/Theorems.v
theories/Complete/Model.v
theories/Complete/Spec.v
theories/Complete/Proofs.v
theories/Complete/Theorems.v
theories/Consts/Model.v
theories/Consts/Spec.v
theories/Consts/Proofs.v
theories/Consts/Theorems.v
theories/Pos/Model.v
theories/Pos/Spec.v
theories/Pos/Proofs.v
theories/Pos/Theorems.v
theories/Usage/Model.v
theories/Usage/Spec.v
theories/Usage/Proofs.v
theories/Usage/Theorems.v
theories/Entry/Model.v
theories/Entry/Spec.v
theories/Entry/Proofs.v
theories/Entry/Theorems.v
theories/Loglib/Model.v
theories/Loglib/Spec.v
theories/Loglib/Proofs.v
theories/Loglib/Theorems.v
theories/Descr/Model.v
theories/Descr/Spec.v
theories/Descr/Proofs.v
theories/Descr/Theorems.v
theories/Rand/Model.v
theories/Rand/Spec.v
theories/Rand/Proofs.v
theories/Rand/Theorems.v
