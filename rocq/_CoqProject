-Q theories Verif
theories/Base/Bytes.v
theories/Base/BytesFacts.v
theories/Base/Dec.v
theories/Base/DecFacts.v
theories/Model/AggType.v
theories/Spec/AggSpec.v
theories/Proof/AggProof.v
theories/Props/AggProps.v
theories/Model/AggConfig.v
theories/Spec/AggConfigSpec.v
theories/Proof/AggConfigProof.v
theories/Props/AggConfigProps.v
theories/Model/Policy.v
theories/Spec/PolicySpec.v
theories/Proof/PolicyProof.v
theories/Props/PolicyProps.v
theories/Base/Utf8.v
theories/Spec/TextSpec.v
theories/Proof/Utf8Proof.v
theories/Base/Slice.v
theories/Base/SliceFacts.v
theories/Model/Transformation.v
theories/Model/Pipeline.v
theories/Model/Metadata.v
theories/Model/LegacyConvert.v
theories/Spec/MetadataSpec.v
theories/Proof/MetadataProof.v
theories/Props/MetadataProps.v
theories/Model/Filter.v
theories/Model/MetricID.v
theories/Spec/FilterSpec.v
theories/Proof/FilterProof.v
theories/Proof/TrimProof.v
theories/Proof/TagProof.v
theories/Props/FilterProps.v
theories/Props/RulesProps.v
theories/Props/EditProps.v
theories/Props/RuleSetProtoProps.v
theories/Model/Rules.v
theories/Model/RuleSet.v
theories/Model/RuleSetProto.v
theories/Model/Namespace.v
theories/Model/Store.v
theories/Model/Validator.v
theories/Spec/ValidatorSpec.v
theories/Proof/ValidatorProof.v
theories/Spec/RulesSpec.v
theories/Proof/RulesProof.v
theories/Proof/MatchProof.v
theories/Proof/TargetProof.v
theories/Proof/WindowProof.v
theories/Proof/ServeProof.v
theories/Proof/ReverseProof.v
theories/Proof/InstantProof.v
theories/Spec/EditSpec.v
theories/Spec/RuleSetProtoSpec.v
theories/Spec/NamespaceSpec.v
theories/Spec/StoreSpec.v
theories/Proof/EditProof.v
theories/Proof/EditMatchProof.v
theories/Proof/RuleSetProtoProof.v
theories/Proof/StoreEditProof.v
theories/Proof/NamespaceProof.v
theories/Proof/StoreProof.v
theories/Props/NamespaceProps.v
theories/Props/StoreProps.v
theories/Proof/ValidatorEditProof.v
theories/Props/ValidatorProps.v
theories/Model/CacheList.v
theories/Spec/CacheListSpec.v
theories/Proof/CacheListProof.v
theories/Props/CacheListProps.v
theories/Base/BMap.v
theories/Base/BMapFacts.v
theories/Model/Cache.v
theories/Spec/CacheSpec.v
theories/Proof/CacheProof.v
theories/Proof/CacheRunProof.v
theories/Proof/CacheLruProof.v
theories/Proof/CacheFreshProof.v
theories/Proof/CachePurgeProof.v
theories/Props/CacheProps.v
theories/Model/HashMap.v
theories/Spec/HashMapSpec.v
theories/Proof/HashMapProof.v
theories/Props/HashMapProps.v
theories/Proof/ServedProof.v
theories/Props/MatcherProps.v
theories/Model/Matcher.v
theories/Model/ProtoWire.v
theories/Model/Messages.v
theories/Model/ProtoStream.v
theories/Model/MsgpackLib.v
theories/Model/Msgpack.v
theories/Spec/ProtoStreamSpec.v
theories/Spec/MsgpackSpec.v
theories/Spec/MsgpackAcceptSpec.v
theories/Spec/MatcherSpec.v
theories/Proof/MatcherProof.v
theories/Proof/MatcherServeProof.v
theories/Proof/MatcherLiveProof.v
theories/Proof/ProtoWireProof.v
theories/Proof/MessagesProof.v
theories/Proof/ProtoPure.v
theories/Proof/ProtoFrameProof.v
theories/Proof/ProtoHeapProof.v
theories/Proof/ProtoSystemProof.v
theories/Proof/ProtoSafeProof.v
theories/Proof/ProtoStateProof.v
theories/Proof/MsgpackLibProof.v
theories/Proof/MsgpackProof.v
theories/Proof/MsgpackLocal.v
theories/Proof/MsgpackIterProof.v
theories/Proof/MsgpackAggProof.v
theories/Proof/MsgpackAccept.v
theories/Proof/MsgpackAcceptIter.v
theories/Props/ProtoStreamProps.v
theories/Props/MsgpackProps.v
theories/Props/MsgpackAcceptProps.v
theories/Model/Migration.v
theories/Spec/MigrationSpec.v
theories/Proof/MigrationProof.v
theories/Props/MigrationProps.v
theories/Model/RuleWire.v
theories/Spec/RuleWireSpec.v
theories/Proof/RuleWireProof.v
theories/Props/RuleWireProps.v
theories/Spec/WireSpec.v
theories/Proof/WireProof.v
theories/Proof/WireWritten.v
theories/Props/WireProps.v
theories/Model/System.v
theories/Spec/SystemSpec.v
theories/Proof/SystemProof.v
theories/Props/SystemProps.v
theories/Model/Json.v
theories/Spec/JsonSpec.v
theories/Proof/JsonText.v
theories/Proof/JsonProof.v
theories/Proof/JsonReadProof.v
theories/Proof/JsonLatestProof.v
theories/Proof/JsonKeyProof.v
theories/Props/JsonProps.v
theories/Model/PolicyJson.v
theories/Spec/PolicyJsonSpec.v
theories/Proof/PolicyJsonProof.v
theories/Props/PolicyJsonProps.v
theories/Model/Yaml.v
theories/Spec/YamlSpec.v
theories/Proof/YamlProof.v
theories/Props/YamlProps.v
theories/Model/View.v
theories/Spec/ViewSpec.v
theories/Proof/ViewProof.v
theories/Props/ViewProps.v
theories/Model/NsValidator.v
theories/Spec/NsValidatorSpec.v
theories/Proof/NsValidatorProof.v
theories/Props/NsValidatorProps.v
theories/Spec/DeliverySpec.v
theories/Proof/ReadTypedProof.v
theories/Proof/DeliveryProof.v
theories/Proof/DeliverySystemProof.v
theories/Props/DeliveryProps.v
theories/Spec/WireMeaningSpec.v
theories/Spec/StreamMeaningSpec.v
theories/Proof/WireMeaning.v
theories/Proof/WireMeaningFields.v
theories/Proof/WireMeaningParts.v
theories/Proof/WireMeaningMessages.v
theories/Proof/StreamMeaning.v
theories/Proof/StreamMeaningIter.v
theories/Props/WireMeaningProps.v
theories/Proof/StreamUnique.v
theories/Props/StreamMeaningProps.v
theories/Proof/WireMeaningWritten.v
theories/Props/WrittenMeaningProps.v
theories/Base/Mem.v
theories/Model/RuleMem.v
theories/Spec/RuleMemSpec.v
theories/Proof/MemProof.v
theories/Proof/MemSep.v
theories/Proof/RuleMemCopy.v
theories/Proof/RuleMemRules.v
theories/Proof/RuleMemKinds.v
theories/Proof/RuleMemSets.v
theories/Proof/RuleMemFresh.v
theories/Proof/RuleMemViews.v
theories/Proof/RuleMemWorld.v
theories/Proof/RuleMemRead.v
theories/Props/RuleMemProps.v
theories/Model/MatchMem.v
theories/Spec/MatchMemSpec.v
theories/Proof/MatchMemSep.v
theories/Proof/MatchMemSlice.v
theories/Proof/MatchMemPm.v
theories/Proof/MatchMemMatch.v
theories/Proof/MatchMemStage.v
theories/Proof/MatchMemForward.v
theories/Proof/MatchMemReverse.v
theories/Props/MatchMemProps.v
theories/Spec/ServeMemSpec.v
theories/Proof/ServeMemProof.v
theories/Proof/ServeMemLives.v
theories/Props/ServeMemProps.v
theories/Props/CloseProps.v
theories/Spec/StoredSpec.v
theories/Proof/StoredProof.v
theories/Props/StoredProps.v
theories/Model/IterMem.v
theories/Spec/IterMemSpec.v
theories/Proof/IterMemArrays.v
theories/Proof/IterMemNext.v
theories/Proof/IterMemWorld.v
theories/Proof/IterMemKept.v
theories/Props/IterMemProps.v
theories/Props/DefaultProps.v
theories/Spec/DelaySpec.v
theories/Props/DelayProps.v
theories/Model/Locks.v
theories/Spec/LocksSpec.v
theories/Proof/LocksProof.v
theories/Props/LocksProps.v
theories/Model/EncPool.v
theories/Spec/EncPoolSpec.v
theories/Proof/EncPoolProof.v
theories/Props/EncPoolProps.v
theories/Model/ProtoPool.v
theories/Spec/ProtoPoolSpec.v
theories/Proof/ProtoPoolProof.v
theories/Props/ProtoPoolProps.v
theories/Model/TagPool.v
theories/Spec/TagPoolSpec.v
theories/Proof/TagPoolProof.v
theories/Props/TagPoolProps.v
theories/Model/ByteStore.v
theories/Spec/ByteStoreSpec.v
theories/Proof/ByteStoreProof.v
theories/Props/ByteStoreProps.v
